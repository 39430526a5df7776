(** Proofs about sampled partitions. *)
From Verif Require Import Base CiuModel CiuProofs SamplerModel SamplerSpec.
From Coq Require Import NArith ZArith SpecFloat.

Section Proofs.
Context {val : Type} (val_dec : forall x y : val, {x = y} + {x <> y}) {err : Type}.
Notation source := (source val err).
Notation batch := (batch val).
Notation part := (part val err).
Notation sampler := (sampler val err).

Local Arguments messages : simpl never.

(** ** Streams *)

Lemma messages_from_snoc (src : source) pos n : (forall m, pos <= m < pos + n -> src m <> End) ->
  messages_from src pos (S n) = messages_from src pos n ++ match src (pos + n) with Ready r => [r] | _ => [] end.
Proof.
  revert pos. induction n as [|n IH]; intros pos H.
  - cbn. rewrite Nat.add_0_r. now destruct (src pos).
  - change (messages_from src pos (S (S n))) with
      (match src pos with Pending => messages_from src (S pos) (S n) | Ready r => r :: messages_from src (S pos) (S n) | End => [] end).
    rewrite IH by (intros m Hm; apply H; lia). replace (S pos + n) with (pos + S n) by lia.
    cbn [messages_from]. destruct (src pos) eqn:E; [reflexivity|reflexivity|]. destruct (H pos); [lia|assumption].
Qed.

Definition no_end (src : source) (n : nat) : Prop := forall m, m < n -> src m <> End.

Lemma messages_snoc (src : source) n : no_end src n ->
  messages src (S n) = messages src n ++ match src n with Ready r => [r] | _ => [] end.
Proof. intros H. apply messages_from_snoc. intros m Hm. apply H. lia. Qed.

Lemma messages_split (src : source) n k : no_end src n -> messages src (n + k) = messages src n ++ messages_from src n k.
Proof.
  unfold messages. intros H. assert (G : forall n pos, (forall m, pos <= m < pos + n -> src m <> End) ->
    messages_from src pos (n + k) = messages_from src pos n ++ messages_from src (pos + n) k).
  { clear. induction n as [|n IH]; intros pos H; cbn [plus]; [now rewrite Nat.add_0_r|]. cbn [messages_from].
    destruct (src pos) eqn:E.
    - rewrite IH by (intros m Hm; apply H; lia). now replace (S pos + n) with (pos + S n) by lia.
    - rewrite IH by (intros m Hm; apply H; lia). now replace (S pos + n) with (pos + S n) by lia.
    - destruct (H pos); [lia|assumption]. }
  apply (G n 0). intros m Hm. apply H. lia.
Qed.

(** Where a fused stream is. *)
Definition seen (src : source) (pos : nat) (eos : bool) : Prop :=
  if eos then exists k, pos = S k /\ no_end src k /\ src k = End else no_end src pos.

Lemma seen_messages_end src pos : seen src pos true -> ends_with src (messages src pos).
Proof.
  intros (k & -> & Hn & Hk). exists k. split; [exact Hn|]. split; [exact Hk|]. rewrite messages_snoc by assumption. rewrite Hk. now rewrite app_nil_r.
Qed.

(** A chunk read by the task: the first messages of the stream, all of them when it ended. *)
Definition chunk_of (src : source) (l : list (batch + err)) (pos : nat) (eos : bool) : Prop :=
  messages src pos = l /\ seen src pos eos.

Lemma ready_chunk_spec src cap : forall pos l pos' eos, no_end src pos -> ready_chunk src cap pos = (l, pos', eos) ->
  messages src pos' = messages src pos ++ l /\ seen src pos' eos /\ (l = [] -> eos = false -> 0 < cap -> pos' = S pos /\ src pos = Pending).
Proof.
  induction cap as [|cap IH]; intros pos l pos' eos Hn H; cbn in H.
  - injection H as <- <- <-. rewrite app_nil_r. split; [reflexivity|]. split; [assumption|]. lia.
  - destruct (src pos) eqn:E.
    + injection H as <- <- <-. rewrite messages_snoc, E by assumption. split; [reflexivity|].
      split; [|auto]. intros m Hm. destruct (Nat.eq_dec m pos) as [->|]; [congruence|]. apply Hn. lia.
    + destruct (ready_chunk src cap (S pos)) as [[l0 p0] e0] eqn:R. injection H as <- <- <-.
      assert (Hn' : no_end src (S pos)). { intros m Hm. destruct (Nat.eq_dec m pos) as [->|]; [congruence|]. apply Hn. lia. }
      destruct (IH _ _ _ _ Hn' R) as (M & S & _). split; [|split; [assumption|discriminate]].
      rewrite M, messages_snoc, E by assumption. now rewrite <- app_assoc.
    + injection H as <- <- <-. rewrite messages_snoc, E by assumption. split; [reflexivity|]. split; [|discriminate].
      exists pos. auto.
Qed.

Lemma push_all_ok (l : list (batch + err)) bs : push_all l = inl bs -> l = map inl bs.
Proof.
  revert bs. induction l as [|[b|e] l IH]; cbn; intros bs H; [now injection H as <-| |discriminate].
  destruct (push_all l) as [bs0|]; [|discriminate]. injection H as <-. cbn. f_equal. now apply IH.
Qed.
Lemma push_all_err (l : list (batch + err)) e : push_all l = inr e -> exists bs rest, l = map inl bs ++ inr e :: rest.
Proof.
  revert e. induction l as [|[b|e0] l IH]; cbn; intros e H; [discriminate| |].
  - destruct (push_all l) as [bs0|e1]; [discriminate|]. injection H as ->. destruct (IH e eq_refl) as (bs & rest & ->). now exists (b :: bs), rest.
  - injection H as ->. now exists [], l.
Qed.

(** ** What a load report says *)

Lemma add_to_spec : forall xs result, List.length xs <= List.length result ->
  exists l, add_to result xs = Ok l /\ List.length l = List.length result /\
    forall i r, nth_error result i = Some r -> nth_error l i = Some (r + match nth_error xs i with Some x => x | None => 0 end).
Proof.
  induction xs as [|x xs IH]; intros [|r result] Hl; cbn in Hl; try lia.
  - exists []. repeat split. intros [|]; discriminate.
  - exists (r :: result). repeat split. intros i r0 Hi. rewrite Hi. destruct i; cbn; f_equal; lia.
  - destruct (IH result) as (l & E & L & G); [lia|]. exists (r + x :: l). cbn. rewrite E. cbn. split; [reflexivity|]. split; [lia|].
    intros [|i] r0 Hi; cbn in *; [injection Hi as ->; reflexivity|auto].
Qed.

Lemma bytes_spec n_cols : forall (peek : list batch) result, List.length result = n_cols -> Forall (wf_batch n_cols) peek ->
  exists l, add_all result (map (fun b => map c_size (b_cols b)) peek) = Ok l /\ List.length l = n_cols /\
    forall c r, nth_error result c = Some r -> nth_error l c = Some (r + column_bytes c peek).
Proof.
  induction peek as [|b peek IH]; intros result Hl Hwf; cbn [map add_all].
  - exists result. split; [reflexivity|]. split; [assumption|]. intros c r Hc. rewrite Hc. unfold column_bytes. cbn. f_equal. lia.
  - apply Forall_cons_iff in Hwf as ((Hb & _) & Hwf).
    destruct (add_to_spec (map c_size (b_cols b)) result) as (l0 & E0 & L0 & G0); [rewrite map_length; lia|].
    rewrite E0. cbn [bind]. destruct (IH l0) as (l & E & L & G); [lia|assumption|]. exists l. split; [exact E|]. split; [exact L|].
    intros c r Hc. rewrite (G c _ (G0 c r Hc)). f_equal. unfold column_bytes. cbn [map list_sum fold_right].
    rewrite nth_error_map. destruct (nth_error (b_cols b) c); cbn [option_map]; unfold list_sum; lia.
Qed.

Lemma nulls_spec n_cols : forall (peek : list batch) counts, List.length counts = n_cols -> Forall (wf_batch n_cols) peek ->
  exists l, count_nulls counts peek = Ok l /\ List.length l = n_cols /\
    forall c k, nth_error counts c = Some k -> nth_error l c = Some (k + List.length (filter is_null (column_values c peek))).
Proof.
  induction peek as [|b peek IH]; intros counts Hl Hwf; cbn [count_nulls].
  - exists counts. split; [reflexivity|]. split; [assumption|]. intros c k Hc. rewrite Hc. cbn. f_equal. lia.
  - apply Forall_cons_iff in Hwf as ((Hb & _) & Hwf).
    assert (A : exists l0, add_nulls counts (b_cols b) = Ok l0 /\ List.length l0 = n_cols /\
      forall c k, nth_error counts c = Some k -> exists col, nth_error (b_cols b) c = Some col /\ nth_error l0 c = Some (k + null_count col)).
    { rewrite <- Hl in Hb. clear - Hb Hl. revert Hb Hl. generalize (b_cols b) as cols. revert n_cols. induction counts as [|k counts IH]; intros n [|c cols] Hb Hl; cbn in *; try discriminate.
      - exists []. repeat split; try assumption. intros [|]; discriminate.
      - destruct (IH (pred n) cols) as (l0 & E & L & G); [lia|lia|]. rewrite E. cbn. exists (k + null_count c :: l0). cbn.
        split; [reflexivity|]. split; [lia|]. intros [|i] k0 Hi; cbn in *; [injection Hi as ->; eauto|auto]. }
    destruct A as (l0 & E0 & L0 & G0). rewrite E0. cbn [bind]. destruct (IH l0 L0 Hwf) as (l & E & L & G). exists l. split; [exact E|]. split; [exact L|].
    intros c k Hc. destruct (G0 c k Hc) as (col & Hcol & H0). rewrite (G c _ H0). f_equal. unfold column_values. cbn [flat_map]. rewrite Hcol, filter_app, app_length.
    unfold null_count. change (fun v : option val => match v with Some _ => false | None => true end) with (@is_null val). lia.
Qed.

Definition add_distinct (s : list val) (v : option val) : list val :=
  match v with Some v => if in_dec val_dec v s then s else v :: s | None => s end.

Lemma insert_row_spec : forall sets cols row, List.length cols = List.length sets -> Forall (fun c => row < List.length (c_vals c)) cols ->
  exists l, insert_row val_dec sets cols row = Ok l /\ List.length l = List.length sets /\
    forall c s, nth_error sets c = Some s -> exists col v, nth_error cols c = Some col /\ nth_error (c_vals col) row = Some v /\ nth_error l c = Some (add_distinct s v).
Proof.
  induction sets as [|s sets IH]; intros [|c cols] row Hl Hr; cbn in Hl; try discriminate.
  - exists []. repeat split. intros [|]; discriminate.
  - apply Forall_cons_iff in Hr as (Hc & Hr). destruct (IH cols row) as (l & E & L & G); [lia|assumption|]. cbn [insert_row].
    destruct (nth_error (c_vals c) row) as [v|] eqn:Ev; [|apply nth_error_None in Ev; lia].
    assert (H : exists l', insert_row val_dec (s :: sets) (c :: cols) row = Ok (add_distinct s v :: l') /\ l' = l).
    { exists l. cbn [insert_row]. rewrite Ev. destruct v as [v|]; rewrite E; cbn; auto. }
    destruct H as (l' & H & ->). cbn [insert_row] in H. rewrite Ev in H. rewrite H. eexists. split; [reflexivity|]. cbn. split; [lia|].
    intros [|i] s0 Hi; cbn in *; [injection Hi as ->; eauto|auto].
Qed.

(** The rows of an ascending list of row numbers that are below a bound come first. *)
Fixpoint ascending (l : list nat) : Prop := match l with [] => True | x :: l => Forall (fun y => x < y) l /\ ascending l end.

Lemma ascending_seq s n : ascending (seq s n).
Proof. revert s. induction n as [|n IH]; intros s; cbn; [exact I|]. split; [|apply IH]. apply Forall_forall. intros y Hy. apply in_seq in Hy. lia. Qed.

Lemma ascending_nth l : (forall i j, i < j < List.length l -> nth i l 0 < nth j l 0) -> ascending l.
Proof.
  induction l as [|x l IH]; cbn [ascending]; intros H; [exact I|]. split.
  - apply Forall_forall. intros y Hy. apply (In_nth _ _ 0) in Hy as (j & Hj & <-). apply (H 0 (S j)). cbn. lia.
  - apply IH. intros i j Hij. apply (H (S i) (S j)). cbn. lia.
Qed.

Lemma sample_of_spec m total ix : sample_of m total ix -> ascending ix /\ Forall (fun i => i < total) ix.
Proof.
  unfold sample_of. destruct (total <=? m).
  - intros ->. split; [apply ascending_seq|]. apply Forall_forall. intros i Hi. apply in_seq in Hi. lia.
  - intros (_ & H & F). split; [now apply ascending_nth|assumption].
Qed.

Lemma sample_of_exists m total : exists ix, sample_of m total ix.
Proof.
  unfold sample_of. destruct (total <=? m) eqn:E; [eauto|]. apply Nat.leb_gt in E. exists (seq 0 m). split; [apply seq_length|]. split.
  - intros i j H. rewrite seq_length in H. rewrite !seq_nth by lia. lia.
  - apply Forall_forall. intros i Hi. apply in_seq in Hi. lia.
Qed.

(** The values looked up in a column, in the order of the row numbers. *)
Definition looked_up (vs : list (option val)) (ix : list nat) : list (option val) :=
  flat_map (fun i => match nth_error vs i with Some v => [v] | None => [] end) ix.

Lemma sample_batch_spec n_cols b base : wf_batch n_cols b -> forall ix sets, List.length sets = n_cols -> ascending ix -> Forall (fun i => base <= i) ix ->
  exists l taken left, sample_batch val_dec sets (b_cols b) base (base + b_rows b) ix = Ok (l, left) /\ ix = taken ++ left /\ List.length l = n_cols /\
    Forall (fun i => i < base + b_rows b) taken /\ Forall (fun i => base + b_rows b <= i) left /\ ascending left /\
    forall c s, nth_error sets c = Some s -> exists col, nth_error (b_cols b) c = Some col /\
      nth_error l c = Some (fold_left add_distinct (looked_up (c_vals col) (map (fun i => i - base) taken)) s).
Proof.
  intros (Hb & Hcols). induction ix as [|i ix IH]; intros sets Hl Ha Hbase; cbn [sample_batch].
  - exists sets, [], []. repeat split; auto. intros c s Hs.
    destruct (nth_error (b_cols b) c) as [col|] eqn:E; [eauto|]. apply nth_error_None in E. assert (c < List.length sets) by (apply nth_error_Some; congruence). lia.
  - apply Forall_cons_iff in Hbase as (Hi & Hbase). destruct Ha as (Hlt & Ha). destruct (i <? base + b_rows b) eqn:E.
    + apply Nat.ltb_lt in E. destruct (insert_row_spec sets (b_cols b) (i - base)) as (l0 & E0 & L0 & G0); [lia| |].
      { eapply Forall_impl; [|exact Hcols]. cbn. intros c Hc. lia. }
      rewrite E0. cbn [bind]. destruct (IH l0) as (l & taken & left & E1 & -> & L1 & T & F & A & G); [lia|assumption|assumption|].
      exists l, (i :: taken), left. split; [exact E1|]. split; [reflexivity|]. split; [exact L1|]. split; [now constructor|]. split; [assumption|]. split; [assumption|].
      intros c s Hs. destruct (G0 c s Hs) as (col & v & Hcol & Hv & H0). exists col. split; [assumption|].
      destruct (G c _ H0) as (col' & Hcol' & H1). assert (col' = col) by congruence. subst col'. rewrite H1. f_equal.
      cbn [looked_up map flat_map]. rewrite Hv. reflexivity.
    + apply Nat.ltb_ge in E. exists sets, [], (i :: ix). split; [reflexivity|]. split; [reflexivity|]. split; [assumption|]. split; [constructor|].
      split. { constructor; [assumption|]. eapply Forall_impl; [|exact Hlt]. cbn. intros; lia. }
      split; [now split|].
      intros c s Hs. destruct (nth_error (b_cols b) c) as [col|] eqn:Ec; [eauto|]. apply nth_error_None in Ec. assert (c < List.length sets) by (apply nth_error_Some; congruence). lia.
Qed.

Lemma looked_up_shift (vs vs' : list (option val)) base ix : List.length vs' = base -> Forall (fun i => base <= i) ix ->
  looked_up (vs' ++ vs) ix = looked_up vs (map (fun i => i - base) ix).
Proof.
  intros Hl H. induction H as [|i ix Hi H IH]; [reflexivity|]. cbn [looked_up map flat_map]. fold (looked_up (vs' ++ vs) ix). fold (looked_up vs (map (fun i => i - base) ix)).
  rewrite IH. now rewrite nth_error_app2, Hl by lia.
Qed.
Lemma looked_up_first (vs vs' : list (option val)) ix : Forall (fun i => i < List.length vs) ix -> looked_up (vs ++ vs') ix = looked_up vs ix.
Proof.
  intros H. induction H as [|i ix Hi H IH]; [reflexivity|]. cbn [looked_up map flat_map]. fold (looked_up (vs ++ vs') ix). fold (looked_up vs ix).
  rewrite IH. now rewrite nth_error_app1 by lia.
Qed.

Lemma sample_batches_spec n_cols : forall (peek : list batch) base ix sets, Forall (wf_batch n_cols) peek -> List.length sets = n_cols ->
  ascending ix -> Forall (fun i => base <= i) ix ->
  exists l, sample_batches val_dec sets peek base ix = Ok l /\ List.length l = n_cols /\
    forall c s, nth_error sets c = Some s -> nth_error l c = Some (fold_left add_distinct (looked_up (column_values c peek) (map (fun i => i - base) ix)) s).
Proof.
  induction peek as [|b peek IH]; intros base ix sets Hwf Hl Ha Hbase; cbn [sample_batches].
  - exists sets. split; [reflexivity|]. split; [assumption|]. intros c s Hs. rewrite Hs. f_equal.
    replace (looked_up _ _) with (@nil (option val)); [reflexivity|]. symmetry. apply flat_map_all_nil. intros i _. unfold column_values. cbn. now destruct i.
  - apply Forall_cons_iff in Hwf as (Hb & Hwf).
    destruct (sample_batch_spec n_cols b base Hb ix sets Hl Ha Hbase) as (l0 & taken & left & E0 & -> & L0 & T & F & A & G). rewrite E0. cbn [bind].
    destruct (IH (base + b_rows b) left l0 Hwf L0 A F) as (l & E & L & G1). exists l. split; [exact E|]. split; [exact L|].
    intros c s Hs. destruct (G c s Hs) as (col & Hcol & H0). rewrite (G1 c _ H0). f_equal. rewrite <- fold_left_app. f_equal.
    assert (Hlen : List.length (c_vals col) = b_rows b).
    { destruct Hb as (_ & Hb). rewrite Forall_forall in Hb. apply Hb. now apply nth_error_In in Hcol. }
    unfold column_values. cbn [flat_map]. rewrite Hcol. fold (column_values c peek). rewrite map_app. unfold looked_up at 3. rewrite flat_map_app.
    fold (looked_up (c_vals col ++ column_values c peek) (map (fun i => i - base) taken)).
    fold (looked_up (c_vals col ++ column_values c peek) (map (fun i => i - base) left)).
    apply Forall_app in Hbase as (Hb1 & Hb2). rewrite looked_up_first.
    + f_equal. rewrite (looked_up_shift _ _ (b_rows b)); [|assumption|apply Forall_map; rewrite Forall_forall in F |- *; intros i Hi; specialize (F i Hi); lia].
      rewrite map_map. f_equal. apply map_ext. intros; lia.
    + rewrite Hlen. apply Forall_map. rewrite Forall_forall in T, Hb1 |- *. intros i Hi. specialize (T i Hi). specialize (Hb1 i Hi). lia.
Qed.

Lemma fold_distinct (l : list (option val)) s : NoDup s ->
  NoDup (fold_left add_distinct l s) /\ forall v, In v (fold_left add_distinct l s) <-> In v s \/ In (Some v) l.
Proof.
  revert s. induction l as [|[v0|] l IH]; intros s Hs; cbn [fold_left]; cbn [add_distinct].
  - split; [assumption|]. cbn. tauto.
  - destruct (in_dec val_dec v0 s) as [Hi|Hi].
    + destruct (IH s Hs) as (A & B). split; [assumption|]. intros v. rewrite B. cbn. split; [tauto|]. intros [H|[H|H]]; auto. injection H as ->. auto.
    + destruct (IH (v0 :: s)) as (A & B); [now constructor|]. split; [assumption|]. intros v. rewrite B. cbn. split; [|intros [H|[H|H]]; auto; injection H as ->; auto].
      intros [[->|H]|H]; auto.
  - destruct (IH s Hs) as (A & B). split; [assumption|]. intros v. rewrite B. cbn. split; [tauto|]. intros [H|[H|H]]; auto. discriminate.
Qed.

Lemma distinct_count vs ix : List.length (fold_left add_distinct (looked_up vs ix) []) = List.length (distinct val_dec vs ix).
Proof.
  destruct (fold_distinct (looked_up vs ix) []) as (A & B); [constructor|]. apply Permutation_length. apply NoDup_Permutation; [assumption|apply NoDup_nodup|].
  intros v. rewrite B. unfold distinct. rewrite nodup_In, in_flat_map. unfold looked_up. rewrite in_flat_map. cbn. split.
  - intros [[]|(i & Hi & Hv)]. exists i. split; [assumption|]. destruct (nth_error vs i) as [[w|]|]; cbn in Hv; try tauto; destruct Hv as [Hv|[]]; try discriminate.
    injection Hv as ->. now left.
  - intros (i & Hi & Hv). right. exists i. split; [assumption|]. destruct (nth_error vs i) as [[w|]|]; cbn in Hv; try tauto. destruct Hv as [->|[]]. now left.
Qed.

Lemma repeat_nth {A} (x : A) n c : c < n -> nth_error (repeat x n) c = Some x.
Proof. revert c. induction n as [|n IH]; intros [|c] H; cbn; try lia; [reflexivity|]. apply IH. lia. Qed.

Lemma filled_spec max_sample n_cols i (peek : list batch) ix pulled eos : Forall (wf_batch n_cols) peek -> sample_of max_sample (rows_ready peek) ix ->
  exists li, filled_load_info val_dec i n_cols peek ix pulled eos = Ok li /\ li_partition li = i /\ li_eos li = eos /\ li_pulled li = pulled /\
    describes val_dec max_sample n_cols peek li.
Proof.
  intros Hwf Hix. destruct (sample_of_spec _ _ _ Hix) as (Ha & Hlt). unfold filled_load_info, per_col_bytes_ready, per_col_ndv, per_col_null_pct.
  destruct (bytes_spec n_cols peek (repeat 0 n_cols) (repeat_length _ _) Hwf) as (bytes & -> & Lb & Gb). cbn [bind].
  destruct (rows_ready peek =? 0) eqn:E.
  - apply Nat.eqb_eq in E. cbn [bind]. eexists. split; [reflexivity|]. cbn. do 3 (split; [reflexivity|]). unfold describes. cbn [li_rows_ready li_bytes_ready li_ndv li_nulls].
    unfold rows_ready in E. split; [reflexivity|]. split; [assumption|]. rewrite !repeat_length. split; [reflexivity|]. split; [reflexivity|].
    split. { intros c Hc. now rewrite (Gb c 0 (repeat_nth _ _ _ Hc)). } split; [lia|].
    intros _. apply Forall_app; split; apply Forall_forall; intros x Hx; apply repeat_spec in Hx; now subst.
  - apply Nat.eqb_neq in E.
    destruct (sample_batches_spec n_cols peek 0 ix (repeat [] n_cols) Hwf (repeat_length _ _) Ha) as (sets & -> & Ls & Gs); [apply Forall_forall; intros; lia|]. cbn [bind].
    destruct (nulls_spec n_cols peek (repeat 0 n_cols) (repeat_length _ _) Hwf) as (counts & -> & Lc & Gc). cbn [bind].
    eexists. split; [reflexivity|]. cbn. do 3 (split; [reflexivity|]). unfold describes. cbn [li_rows_ready li_bytes_ready li_ndv li_nulls].
    unfold rows_ready in *. split; [reflexivity|]. split; [assumption|]. rewrite !map_length. split; [assumption|]. split; [assumption|].
    split. { intros c Hc. now rewrite (Gb c 0 (repeat_nth _ _ _ Hc)). } split; [|lia]. intros _. split.
    + intros c Hc. rewrite nth_error_map, (Gc c 0 (repeat_nth _ _ _ Hc)). reflexivity.
    + exists ix. split; [assumption|]. intros c Hc. rewrite nth_error_map, (Gs c [] (repeat_nth _ _ _ Hc)). cbn [option_map].
      replace (map (fun i0 => i0 - 0) ix) with ix; [now rewrite distinct_count|]. symmetry. rewrite <- (map_id ix) at 2. apply map_ext. intros; lia.
Qed.

(** ** Invariant of a partition *)
Variables (limit max_sample n_cols : nat).
Notation step := (step val_dec limit max_sample n_cols).

Definition sum_size (bs : list batch) : nat := list_sum (map record_batch_size bs).

(** What was sent, if anything, for a chunk. *)
Definition reported (i : nat) (src : source) (r : option load_info) : Prop :=
  forall li, r = Some li -> exists l pos eos ix pulled, chunk_of src l pos eos /\
    match push_all l with
    | inl peek => sample_of max_sample (rows_ready peek) ix /\ filled_load_info val_dec i n_cols peek ix pulled eos = Ok li
    | inr e => li = zero_load_info i n_cols pulled
    end.

Definition part_inv (i : nat) (src : source) (started : bool) (p : part) : Prop :=
  p_src p = src /\ p_slot p = negb (p_taken p) /\ (p_taken p = true -> started = true) /\ reported i src (p_report p) /\
  match p_task p with
  | Reading pos => p_out p = [] /\ p_ended p = false /\ p_reserved p = 0 /\ p_report p = None /\ (forall m, m < pos -> src m = Pending)
  | Chunk r pos eos => p_out p = [] /\ p_ended p = false /\ p_report p = None /\ (p_gone p = false -> p_reserved p = held r) /\
      exists l, chunk_of src l pos eos /\ r = push_all l
  | Finished r pos eos =>
      (p_report p = None -> started = true) /\ (p_out p <> [] \/ p_ended p = true -> p_taken p = true) /\
      (p_gone p = true -> p_taken p = true) /\
      ((exists bs, r = inl bs /\ p_out p ++ map inl bs = messages src pos /\ seen src pos eos /\ (p_ended p = true -> bs = [] /\ eos = true) /\
         (p_gone p = false -> p_reserved p = sum_size bs)) \/
       (exists l pos0 eos0 e, chunk_of src l pos0 eos0 /\ push_all l = inr e /\ (p_gone p = false -> p_reserved p = 0) /\
         ((r = inr e /\ p_out p = [] /\ p_ended p = false) \/ (r = inl [] /\ eos = true /\ p_out p = [inr e]))))
  end /\ (p_gone p = true -> p_taken p = true /\ p_reserved p = 0).

Lemma messages_pending src pos : (forall m, m < pos -> src m = Pending) -> messages src pos = [] /\ no_end src pos.
Proof.
  intros H. assert (Hn : no_end src pos) by (intros m Hm; rewrite (H m Hm); discriminate). split; [|assumption].
  assert (G : forall n, n <= pos -> messages src n = []).
  { induction n as [|n IH]; intros Hle; [reflexivity|]. rewrite messages_snoc by (intros m Hm; apply Hn; lia). rewrite (H n), IH by lia. reflexivity. }
  now apply G.
Qed.

Lemma poll_task_inv i src started p : 0 < limit -> part_inv i src started p -> p_gone p = false -> part_inv i src started (poll_task limit p).
Proof.
  intros Hlim I Hg. unfold poll_task. destruct (p_task p) as [pos| |] eqn:T; [|assumption|assumption].
  destruct I as (Hsrc & Hslot & Hst & Hrep & H & Hgone). rewrite T in H. destruct H as (O & En & Re & Rp & Pe).
  destruct (messages_pending src pos Pe) as (M & Hn). rewrite Hsrc.
  destruct (ready_chunk src limit pos) as [[l pos'] eos] eqn:R. destruct (ready_chunk_spec _ _ _ _ _ _ Hn R) as (M' & S' & P').
  rewrite M in M'. cbn [app] in M'. unfold part_inv.
  assert (D : (l = [] /\ eos = false) \/ ~ (l = [] /\ eos = false)) by (destruct l, eos; intuition discriminate).
  destruct D as [(-> & ->)|D].
  - destruct (P' eq_refl eq_refl Hlim) as (-> & Hp). cbn. split; [reflexivity|]. do 3 (split; [assumption|]). split; [|assumption]. do 4 (split; [assumption|]).
    intros m Hm. destruct (Nat.eq_dec m pos) as [->|]; [assumption|]. apply Pe. lia.
  - replace (match l with [] => _ | _ => _ end) with
      (mkPart src (Chunk (push_all l) pos' eos) (p_slot p) (p_taken p) (p_out p) (p_ended p) (held (push_all l)) (p_report p) (p_gone p))
      by (symmetry; destruct l as [|? ?]; destruct eos; try reflexivity; exfalso; apply D; auto).
    cbn. split; [reflexivity|]. do 3 (split; [assumption|]). split.
    + do 3 (split; [assumption|]). split; [reflexivity|]. exists l. split; [|reflexivity]. split; assumption.
    + intros Hx. congruence.
Qed.

Lemma started_mono i src p : part_inv i src false p -> part_inv i src true p.
Proof.
  intros (Hsrc & Hslot & Hst & Hrep & H & Hgone). split; [assumption|]. split; [assumption|]. split; [auto|]. split; [assumption|]. split; [|assumption].
  destruct (p_task p); [assumption|assumption|]. destruct H as (_ & H). auto.
Qed.

Lemma report_inv i src started p r pos eos ix pulled li : part_inv i src started p -> p_task p = Chunk r pos eos ->
  (forall peek, r = inl peek -> sample_of max_sample (rows_ready peek) ix) ->
  report val_dec i n_cols p ix pulled = Ok li -> p_gone p = false -> part_inv i src started (finish p (Some li)).
Proof.
  intros (Hsrc & Hslot & Hst & Hrep & H & Hgone) T Hix R G. unfold report in R. unfold finish. rewrite T in *. destruct H as (O & En & Rp & Re & l & Hc & ->).
  unfold part_inv. cbn. split; [assumption|]. split; [assumption|]. split; [assumption|]. split.
  - intros li0 [= <-]. exists l, pos, eos, ix, pulled. split; [assumption|]. destruct (push_all l) as [peek|e]; [|congruence]. split; [now apply Hix|assumption].
  - split; [|assumption]. split; [discriminate|]. rewrite O, En. split; [intros [X|X]; [now elim X|discriminate]|]. split; [congruence|].
    destruct (push_all l) as [peek|e] eqn:Ep.
    + left. exists peek. split; [reflexivity|]. destruct Hc as (M & S). split; [rewrite M; cbn; symmetry; now apply push_all_ok|]. split; [assumption|]. split; [discriminate|]. assumption.
    + right. exists l, pos, eos, e. split; [assumption|]. split; [assumption|]. split; [assumption|]. left. auto.
Qed.

Lemma omit_inv i src p r pos eos : part_inv i src true p -> p_task p = Chunk r pos eos -> p_gone p = false -> part_inv i src true (finish p None).
Proof.
  intros (Hsrc & Hslot & Hst & Hrep & H & Hgone) T G. unfold finish. rewrite T in *. destruct H as (O & En & Rp & Re & l & Hc & ->).
  unfold part_inv. cbn. split; [assumption|]. split; [assumption|]. split; [assumption|]. split; [discriminate|].
  split; [|assumption]. split; [reflexivity|]. rewrite O, En. split; [intros [X|X]; [now elim X|discriminate]|]. split; [congruence|].
  destruct (push_all l) as [peek|e] eqn:Ep.
  - left. exists peek. split; [reflexivity|]. destruct Hc as (M & S). split; [rewrite M; cbn; symmetry; now apply push_all_ok|]. split; [assumption|]. split; [discriminate|]. assumption.
  - right. exists l, pos, eos, e. split; [assumption|]. split; [assumption|]. split; [assumption|]. left. auto.
Qed.

Lemma poll_stream_inv i src started p : part_inv i src started p -> p_taken p = true -> p_gone p = false -> part_inv i src started (poll_stream p).
Proof.
  intros I Tk G. unfold poll_stream. destruct (p_ended p) eqn:En; [assumption|]. destruct (p_task p) as [pos|r pos eos|r pos eos] eqn:T; [assumption|assumption|].
  destruct I as (Hsrc & Hslot & Hst & Hrep & H & Hgone). rewrite T in H. destruct H as (Hr & Ho & Hg & H).
  destruct H as [(bs & -> & M & S & En' & Re)|(l & pos0 & eos0 & e & Hc & Hl & Re & [(-> & O & _)|(-> & -> & O)])].
  - destruct bs as [|b bs].
    + cbn [map] in M. rewrite app_nil_r in M. destruct eos.
      * unfold part_inv. cbn. split; [assumption|]. split; [assumption|]. split; [assumption|]. split; [assumption|]. split; [|assumption].
        split; [assumption|]. split; [auto|]. split; [assumption|]. left. exists []. cbn. rewrite app_nil_r. auto 10.
      * cbn [seen] in S. rewrite Hsrc. unfold part_inv. destruct (src pos) as [|r|] eqn:Esrc; cbn.
        -- split; [reflexivity|]. split; [assumption|]. split; [assumption|]. split; [assumption|]. split; [|assumption].
           split; [assumption|]. split; [auto|]. split; [assumption|]. left. exists []. cbn. rewrite app_nil_r. split; [reflexivity|].
           rewrite messages_snoc, Esrc, app_nil_r by assumption. split; [assumption|]. split; [|split; [congruence|assumption]].
           intros m Hm. destruct (Nat.eq_dec m pos) as [->|]; [congruence|]. apply S. lia.
        -- split; [reflexivity|]. split; [assumption|]. split; [assumption|]. split; [assumption|]. split; [|assumption].
           split; [assumption|]. split; [auto|]. split; [assumption|]. left. exists []. cbn. rewrite app_nil_r. split; [reflexivity|].
           rewrite messages_snoc, Esrc by assumption. split; [now rewrite M|]. split; [|split; [congruence|assumption]].
           intros m Hm. destruct (Nat.eq_dec m pos) as [->|]; [congruence|]. apply S. lia.
        -- split; [reflexivity|]. split; [assumption|]. split; [assumption|]. split; [assumption|]. split; [|assumption].
           split; [assumption|]. split; [auto|]. split; [assumption|]. left. exists []. cbn. rewrite app_nil_r. split; [reflexivity|].
           rewrite messages_snoc, Esrc, app_nil_r by assumption. split; [assumption|]. split; [exists pos; auto|]. auto.
    + unfold part_inv. cbn. split; [assumption|]. split; [assumption|]. split; [assumption|]. split; [assumption|]. split; [|intros X; congruence].
      split; [assumption|]. split; [auto|]. split; [assumption|]. left. exists bs. split; [reflexivity|]. split; [rewrite <- app_assoc; exact M|]. split; [assumption|].
      split; [congruence|]. intros _. rewrite (Re G). unfold sum_size, list_sum. cbn [map fold_right]. lia.
  - unfold part_inv. cbn. split; [assumption|]. split; [assumption|]. split; [assumption|]. split; [assumption|]. split; [|assumption].
    split; [assumption|]. split; [auto|]. split; [assumption|]. right. exists l, pos0, eos0, e. split; [assumption|]. split; [assumption|]. split; [assumption|]. right. rewrite O. auto.
  - unfold part_inv. cbn. split; [assumption|]. split; [assumption|]. split; [assumption|]. split; [assumption|]. split; [|assumption].
    split; [assumption|]. split; [auto|]. split; [assumption|]. right. exists l, pos0, eos0, e. split; [assumption|]. split; [assumption|]. split; [assumption|]. right. auto.
Qed.

Definition inv (sources : list source) (s : sampler) : Prop :=
  List.length (s_parts s) = List.length sources /\
  forall i src p, nth_error sources i = Some src -> nth_error (s_parts s) i = Some p -> part_inv i src (s_started s) p.

Lemma inv_init sources : inv sources (kicked_off sources).
Proof.
  split; [unfold kicked_off; cbn; now rewrite map_length|]. intros i src p Hs Hp. unfold kicked_off in Hp. cbn in Hp. rewrite nth_error_map, Hs in Hp. injection Hp as <-.
  unfold part_inv. cbn. split; [reflexivity|]. split; [reflexivity|]. split; [discriminate|]. split; [discriminate|]. split; [|discriminate]. repeat (split; [reflexivity|]). intros; lia.
Qed.

Lemma upd_inv sources s i p' st : inv sources s -> (s_started s = true -> st = true) ->
  (forall src p, nth_error sources i = Some src -> nth_error (s_parts s) i = Some p -> part_inv i src st p') -> inv sources (mkSampler (upd (s_parts s) i p') st).
Proof.
  intros (L & H) Hst Hp. split; [cbn; now rewrite upd_length|]. cbn. intros j src q Hs Hq. rewrite upd_nth in Hq. destruct (i =? j) eqn:E.
  - apply Nat.eqb_eq in E. subst j. destruct (nth_error (s_parts s) i) as [p|] eqn:Ep; [|discriminate]. injection Hq as <-. eauto.
  - specialize (H _ _ _ Hs Hq). destruct st; [|destruct (s_started s) eqn:Es; [discriminate (Hst eq_refl)|assumption]]. destruct (s_started s); [assumption|now apply started_mono].
Qed.

Lemma step_inv sources s s' : 0 < limit -> inv sources s -> step s s' -> inv sources s'.
Proof.
  intros Hlim I Hst. pose proof I as (L & H). destruct Hst as [s i p Hp G|s i p r pos eos ix pulled li Hp G T Hix R|s i p r pos eos Hp G T St|s i|s i p Hp Tk G|s i p Hp Tk G].
  - apply upd_inv; auto. intros src p0 Hs Hp0. assert (p0 = p) by congruence. subst. apply poll_task_inv; eauto.
  - apply upd_inv; auto. intros src p0 Hs Hp0. assert (p0 = p) by congruence. subst. eapply report_inv; eauto.
  - apply upd_inv; auto. intros src p0 Hs Hp0. assert (p0 = p) by congruence. subst. rewrite St. eapply omit_inv; eauto. specialize (H _ _ _ Hs Hp). now rewrite St in H.
  - unfold execute. assert (I' : inv sources (mkSampler (s_parts s) true)).
    { split; [assumption|]. cbn. intros j src q Hs Hq. specialize (H _ _ _ Hs Hq). destruct (s_started s); [assumption|now apply started_mono]. }
    destruct (nth_error (s_parts s) i) as [p|] eqn:Hp; [|assumption]. destruct (p_slot p) eqn:Sl; [|assumption]. cbn [fst].
    apply (upd_inv sources (mkSampler (s_parts s) true)); auto. intros src p0 Hs Hp0. cbn in Hp0. assert (p0 = p) by congruence. subst.
    destruct (proj2 I' i src p Hs Hp) as (A & B & C & D & E & F). cbn in *. rewrite Sl in B. assert (Tk : p_taken p = false) by (now destruct (p_taken p)).
    unfold part_inv. cbn. split; [assumption|]. split; [reflexivity|]. split; [reflexivity|]. split; [assumption|]. split; [|intros X; destruct (F X); congruence].
    destruct (p_task p); [assumption|assumption|]. destruct E as (E1 & E2 & E3 & E4). auto.
  - apply upd_inv; auto. intros src p0 Hs Hp0. assert (p0 = p) by congruence. subst. apply poll_stream_inv; eauto.
  - apply upd_inv; auto. intros src p0 Hs Hp0. assert (p0 = p) by congruence. subst. destruct (H _ _ _ Hs Hp) as (A & B & C & D & E & F).
    unfold part_inv. cbn. split; [assumption|]. split; [assumption|]. split; [assumption|]. split; [assumption|]. split; [|auto].
    destruct (p_task p) as [pos|r pos eos|r pos eos].
    + destruct E as (E1 & E2 & E3 & E4). auto.
    + destruct E as (E1 & E2 & E3 & E4 & E5). repeat (split; [assumption|]). split; [discriminate|assumption].
    + destruct E as (E1 & E2 & E3 & E4). split; [assumption|]. split; [assumption|]. split; [auto|].
      destruct E4 as [(bs & -> & M & S & En & Re)|(l & pos0 & eos0 & e & Hc & Hl & Re & X)].
      * left. exists bs. repeat (split; [assumption || reflexivity|]). discriminate.
      * right. exists l, pos0, eos0, e. repeat (split; [assumption|]). split; [discriminate|assumption].
Qed.

Lemma reachable_inv sources s : 0 < limit -> steps step (kicked_off sources) s -> inv sources s.
Proof. intros Hlim. apply steps_invariant; [apply inv_init|]. intros a b. now apply step_inv. Qed.

Lemma part_exists sources s i src : inv sources s -> nth_error sources i = Some src -> exists p, nth_error (s_parts s) i = Some p.
Proof.
  intros (L & _) Hs. destruct (nth_error (s_parts s) i) eqn:E; [eauto|]. apply nth_error_None in E. rewrite L in E. assert (i < List.length sources) by (apply nth_error_Some; congruence). lia.
Qed.

(** ** What the consumer is given *)

Lemma out_spec i src started p : part_inv i src started p ->
  (exists n, is_prefix (p_out p) (messages src n) /\ (p_ended p = true -> ends_with src (p_out p))) \/
  (exists e, first_error src e /\ p_out p = [inr e]).
Proof.
  intros (Hsrc & Hslot & Hst & Hrep & H & Hgone). destruct (p_task p) as [pos|r pos eos|r pos eos].
  - destruct H as (-> & -> & _). left. exists 0. split; [now exists []|discriminate].
  - destruct H as (-> & -> & _). left. exists 0. split; [now exists []|discriminate].
  - destruct H as (_ & _ & _ & [(bs & -> & M & S & En & _)|(l & pos0 & eos0 & e & (M & S) & Hl & _ & [(-> & -> & ->)|(-> & -> & ->)])]).
    + left. exists pos. split; [now exists (map inl bs)|]. intros X. destruct (En X) as (-> & ->). cbn in M. rewrite app_nil_r in M. rewrite M. now apply seen_messages_end.
    + left. exists 0. split; [now exists []|discriminate].
    + right. exists e. split; [|reflexivity]. destruct (push_all_err _ _ Hl) as (bs & rest & ->). exists pos0, bs, rest. assumption.
Qed.

Lemma error_free_first (src : source) e : error_free src -> first_error src e -> False.
Proof.
  intros Hf (n & bs & rest & M). assert (G : forall n pos, In (inr e) (messages_from src pos n) -> False).
  { clear - Hf. induction n as [|n IH]; intros pos H; cbn in H; [assumption|]. destruct (src pos) eqn:E; [eauto| |assumption].
    destruct H as [->|H]; [exact (Hf pos e E)|eauto]. }
  apply (G n 0). change (messages_from src 0 n) with (messages src n). rewrite M. apply in_app_iff. right. now left.
Qed.

(** ** Progress *)

Definition ends_at (src : source) (n : nat) : Prop := (forall m, m < n -> src m <> End) /\ src n = End.

(** Steps that only concern partition [i]. *)
Lemma to_chunk (src : source) n started : 0 < limit -> ends_at src n -> forall fuel i p s pos, inv (map p_src (s_parts s)) s -> s_started s = started ->
  n + 1 - pos <= fuel -> nth_error (s_parts s) i = Some p -> p_src p = src -> p_task p = Reading pos -> p_gone p = false ->
  exists s' p' r pos' eos, steps step s s' /\ nth_error (s_parts s') i = Some p' /\ p_task p' = Chunk r pos' eos /\ p_src p' = src /\ p_gone p' = false /\ p_taken p' = p_taken p /\ s_started s' = started.
Proof.
  intros Hlim (Hn & He). induction fuel as [|fuel IH]; intros i p s pos I Hst Hf Hp Hsrc T G.
  - exfalso. destruct (proj2 I i src p) as (_ & _ & _ & _ & H & _); [rewrite nth_error_map, Hp; cbn; now rewrite Hsrc|assumption|]. rewrite T in H.
    destruct H as (_ & _ & _ & _ & H). specialize (H n). rewrite H in He by lia. discriminate.
  - assert (St : step s (mkSampler (upd (s_parts s) i (poll_task limit p)) (s_started s))) by (now apply step_task).
    assert (Hp' : nth_error (upd (s_parts s) i (poll_task limit p)) i = Some (poll_task limit p)) by (rewrite upd_nth, Nat.eqb_refl, Hp; reflexivity).
    destruct (p_task (poll_task limit p)) as [pos'|r pos' eos|r pos' eos] eqn:T'.
    + assert (Hpos : pos' = S pos /\ p_src (poll_task limit p) = src /\ p_gone (poll_task limit p) = false /\ p_taken (poll_task limit p) = p_taken p).
      { assert (Hne : no_end src pos).
        { destruct (proj2 I i src p) as (_ & _ & _ & _ & H & _); [rewrite nth_error_map, Hp; cbn; now rewrite Hsrc|assumption|]. rewrite T in H. destruct H as (_ & _ & _ & _ & H). now apply messages_pending. }
        unfold poll_task in *. rewrite T in *. rewrite Hsrc in *. destruct (ready_chunk src limit pos) as [[l q] e] eqn:R. destruct (ready_chunk_spec _ _ _ _ _ _ Hne R) as (_ & _ & P).
        destruct l; [|discriminate]. destruct e; [discriminate|]. cbn in T'. injection T' as <-. destruct (P eq_refl eq_refl Hlim) as (-> & _). cbn. auto. }
      destruct Hpos as (-> & Hs' & Hg' & Hk').
      destruct (IH i (poll_task limit p) (mkSampler (upd (s_parts s) i (poll_task limit p)) (s_started s)) (S pos)) as (s' & p' & r & q & eos & St' & Hp'' & T'' & S'' & G'' & K'' & D''); auto.
      * eapply step_inv; [assumption| |exact St]. cbn. replace (map p_src (upd (s_parts s) i (poll_task limit p))) with (map p_src (s_parts s)); [assumption|].
        clear - Hp Hs' Hsrc. revert i Hp. induction (s_parts s) as [|q l IHl]; intros [|i] Hp; cbn in *; try discriminate; [injection Hp as ->; congruence|]. f_equal. auto.
      * lia.
      * exists s', p', r, q, eos. split; [eapply steps_trans; [apply steps_one; exact St|exact St']|]. rewrite <- Hk'. auto 10.
    + eexists _, _, r, pos', eos. split; [apply steps_one; exact St|]. split; [exact Hp'|]. split; [exact T'|].
      unfold poll_task in *. rewrite T in *. destruct (ready_chunk (p_src p) limit pos) as [[l q] e]. destruct l; [destruct e|]; cbn in *; auto 10.
    + exfalso. unfold poll_task in T'. rewrite T in T'. destruct (ready_chunk (p_src p) limit pos) as [[l q] e]. destruct l; [destruct e|]; discriminate.
Qed.

Lemma sources_same (s : sampler) i p (q : part) : nth_error (s_parts s) i = Some p -> p_src q = p_src p -> map p_src (upd (s_parts s) i q) = map p_src (s_parts s).
Proof.
  revert i. induction (s_parts s) as [|x l IHl]; intros [|i] Hp Hq; cbn in *; try discriminate; [injection Hp as ->; congruence|]. f_equal. auto.
Qed.

Lemma messages_wf (src : source) n : wf_source n_cols src -> forall b, In (inl b) (messages src n) -> wf_batch n_cols b.
Proof.
  intros Hwf. unfold messages. generalize 0. induction n as [|n IH]; intros pos b H; cbn in H; [destruct H|].
  destruct (src pos) eqn:E; [eauto| |destruct H]. destruct H as [->|H]; [eauto|eauto].
Qed.

Lemma poll_stream_src (p : part) : p_src (poll_stream p) = p_src p /\ p_gone (poll_stream p) = p_gone p /\ p_taken (poll_stream p) = p_taken p.
Proof.
  unfold poll_stream. destruct (p_ended p); [auto|]. destruct (p_task p) as [|? ? ?|r pos eos]; auto. destruct r as [[|b bs]|e]; cbn; auto.
  destruct eos; cbn; auto. destruct (p_src p pos); cbn; auto.
Qed.

(** The number of polls until the end, when the task has finished. *)
Lemma to_end (src : source) n : 0 < limit -> ends_at src n -> forall fuel i p s r pos eos, inv (map p_src (s_parts s)) s ->
  nth_error (s_parts s) i = Some p -> p_src p = src -> p_task p = Finished r pos eos -> p_gone p = false -> p_taken p = true ->
  match r with inl bs => List.length bs | inr _ => 1 end + (if eos then 0 else n + 1 - pos) + (if p_ended p then 0 else 1) <= fuel ->
  exists s' p', steps step s s' /\ nth_error (s_parts s') i = Some p' /\ p_ended p' = true.
Proof.
  intros Hlim (Hn & He). induction fuel as [|fuel IH]; intros i p s r pos eos I Hp Hsrc T G Tk Hf.
  - destruct (p_ended p) eqn:En; [|lia]. exists s, p. split; [apply steps_refl|auto].
  - destruct (p_ended p) eqn:En. { exists s, p. split; [apply steps_refl|auto]. }
    assert (St : step s (mkSampler (upd (s_parts s) i (poll_stream p)) (s_started s))) by (now apply step_poll).
    destruct (poll_stream_src p) as (S1 & S2 & S3).
    assert (Hp' : nth_error (upd (s_parts s) i (poll_stream p)) i = Some (poll_stream p)) by (rewrite upd_nth, Nat.eqb_refl, Hp; reflexivity).
    assert (H : exists r' pos' eos', p_task (poll_stream p) = Finished r' pos' eos' /\
      match r' with inl bs => List.length bs | inr _ => 1 end + (if eos' then 0 else n + 1 - pos') + (if p_ended (poll_stream p) then 0 else 1) <= fuel).
    { destruct (proj2 I i src p) as (_ & _ & _ & _ & H & _); [rewrite nth_error_map, Hp; cbn; now rewrite Hsrc|assumption|]. rewrite T in H. destruct H as (_ & _ & _ & H).
      unfold poll_stream. rewrite En, T, Hsrc. destruct r as [[|b bs]|e].
      - destruct eos; [cbn; rewrite En in *; cbn in Hf; eexists _, _, _; split; [reflexivity|]; cbn; lia|].
        destruct H as [(bs & [= <-] & M & S & _)|(l & p0 & e0 & e & _ & _ & _ & [([=] & _)|(_ & [=] & _)])]. cbn in S.
        assert (pos <= n). { destruct (Nat.le_gt_cases pos n) as [|X]; [assumption|]. destruct (S n); [lia|assumption]. }
        cbn in Hf. destruct (src pos) eqn:Es; cbn; eexists _, _, _; (split; [reflexivity|]); cbn; rewrite ?En; lia.
      - cbn. eexists _, _, _. split; [reflexivity|]. cbn in Hf |- *. lia.
      - cbn. eexists _, _, _. split; [reflexivity|]. cbn in Hf |- *. lia. }
    destruct H as (r' & pos' & eos' & T' & Hf').
    destruct (IH i (poll_stream p) (mkSampler (upd (s_parts s) i (poll_stream p)) (s_started s)) r' pos' eos') as (s' & p' & St' & Hp'' & En'); auto; try congruence.
    + eapply step_inv with (s := s); [assumption| |exact St]. cbn. rewrite (sources_same s i p); [assumption|assumption|assumption].
    + exists s', p'. split; [eapply steps_trans; [apply steps_one; exact St|exact St']|auto].
Qed.

Lemma drains (src : source) n s i p : 0 < limit -> ends_at src n -> wf_source n_cols src -> inv (map p_src (s_parts s)) s ->
  nth_error (s_parts s) i = Some p -> p_src p = src -> p_gone p = false -> p_taken p = true ->
  exists s' p', steps step s s' /\ nth_error (s_parts s') i = Some p' /\ p_ended p' = true.
Proof.
  intros Hlim He Hwf I Hp Hsrc G Tk.
  assert (F : forall s p r pos eos, inv (map p_src (s_parts s)) s -> nth_error (s_parts s) i = Some p -> p_src p = src -> p_gone p = false -> p_taken p = true ->
    p_task p = Finished r pos eos -> exists s' p', steps step s s' /\ nth_error (s_parts s') i = Some p' /\ p_ended p' = true).
  { intros s0 p0 r pos eos I0 Hp0 Hs0 G0 Tk0 T0. eapply to_end; eauto. }
  assert (C : forall s p r pos eos, inv (map p_src (s_parts s)) s -> nth_error (s_parts s) i = Some p -> p_src p = src -> p_gone p = false -> p_taken p = true ->
    p_task p = Chunk r pos eos -> exists s' p', steps step s s' /\ nth_error (s_parts s') i = Some p' /\ p_ended p' = true).
  { intros s0 p0 r pos eos I0 Hp0 Hs0 G0 Tk0 T0.
    destruct (sample_of_exists max_sample (match r with inl peek => rows_ready peek | inr _ => 0 end)) as (ix & Hix).
    assert (R : exists li, report val_dec i n_cols p0 ix 0 = Ok li).
    { unfold report. rewrite T0. destruct r as [peek|e]; [|eauto].
      destruct (proj2 I0 i src p0) as (_ & _ & _ & _ & H & _); [rewrite nth_error_map, Hp0; cbn; now rewrite Hs0|assumption|]. rewrite T0 in H.
      destruct H as (_ & _ & _ & _ & l & (M & _) & Hl). symmetry in Hl. apply push_all_ok in Hl.
      destruct (filled_spec max_sample n_cols i peek ix 0 eos) as (li & E & _); [|assumption|eauto].
      apply Forall_forall. intros b Hb. apply (messages_wf src pos Hwf). rewrite M, Hl. now apply in_map. }
    destruct R as (li & R).
    assert (St : step s0 (mkSampler (upd (s_parts s0) i (finish p0 (Some li))) (s_started s0))).
    { eapply step_report; eauto. intros peek ->. assumption. }
    assert (Sr : p_src (finish p0 (Some li)) = p_src p0) by (unfold finish; rewrite T0; reflexivity).
    destruct (F (mkSampler (upd (s_parts s0) i (finish p0 (Some li))) (s_started s0)) (finish p0 (Some li)) r pos eos) as (s' & p' & St' & Hp' & En'); try (unfold finish; rewrite T0; cbn; assumption || reflexivity).
    - eapply step_inv with (s := s0); [assumption| |exact St]. cbn. rewrite (sources_same s0 i p0); assumption.
    - cbn. rewrite upd_nth, Nat.eqb_refl, Hp0. reflexivity.
    - exists s', p'. split; [eapply steps_trans; [apply steps_one; exact St|exact St']|auto]. }
  destruct (p_task p) as [pos|r pos eos|r pos eos] eqn:T; [|eapply C; eauto|eapply F; eauto].
  destruct (to_chunk src n (s_started s) Hlim He (n + 1 - pos) i p s pos I eq_refl (Nat.le_refl _) Hp Hsrc T G) as (s' & p' & r & pos' & eos & St & Hp' & T' & S' & G' & K' & _).
  destruct (C s' p' r pos' eos) as (s'' & p'' & St' & Hp'' & En''); try assumption; try congruence.
  - assert (forall a b, steps step a b -> inv (map p_src (s_parts a)) a -> inv (map p_src (s_parts a)) b /\ map p_src (s_parts b) = map p_src (s_parts a)) as X.
    { intros a b Hab Ia. assert (Ib : inv (map p_src (s_parts a)) b) by (revert Ia; intros Ia; revert Hab; apply steps_invariant; [assumption|]; intros; eapply step_inv; eauto).
      split; [assumption|]. destruct Ib as (Lb & Hb). apply nth_ext_error. intros j. destruct (nth_error (map p_src (s_parts a)) j) as [x|] eqn:Ej.
      - destruct (nth_error (s_parts b) j) as [q|] eqn:Eq; [|apply nth_error_None in Eq; assert (j < List.length (map p_src (s_parts a))) by (apply nth_error_Some; congruence); lia].
        rewrite nth_error_map, Eq. cbn. f_equal. now destruct (Hb j x q Ej Eq).
      - apply nth_error_None in Ej. apply nth_error_None. rewrite map_length. lia. }
    destruct (X s s' St I) as (X1 & X2). now rewrite X2.
  - exists s'', p''. split; [eapply steps_trans; eauto|auto].
Qed.
End Proofs.

