(** Proofs about errors sent over the network. *)
From Verif Require Import Base WireModel WireSpec WireProofs WirePanic ErrorModel ErrorSpec.
From Coq Require Import NArith Lia.
Local Open Scope N_scope.

Lemma errors_apart m : told_apart emsg (efields m).
Proof.
  unfold told_apart. split.
  - destruct m; cbn; repeat (constructor; [cbn; intuition discriminate|]); constructor.
  - destruct m; cbn [efields flat_map tags_of app]; repeat (constructor; [lia|]); constructor.
Qed.

(** ** Typing *)
Section Typed.
Variable utf8 : list N -> bool.
Hypothesis ascii : forall s, Forall (fun b => b < 128) s -> utf8 s = true.
Notation typed := (typed emsg efields utf8).
Notation field_typed := (field_typed emsg efields utf8).

Lemma t_text tag t : utf8 t = true -> field_typed (Implicit tag TString) (set_text tag t).
Proof. intros H. constructor; [exact I|discriminate|discriminate|now constructor]. Qed.
Lemma t_num tag n : n < 2 ^ 64 -> field_typed (Implicit tag TVarint) (set tag (Varint n)).
Proof. intros H. constructor; [exact I|discriminate|discriminate|now constructor]. Qed.
Lemma t_true tag : field_typed (Implicit tag TBool) (set tag (Varint 1)).
Proof. constructor; [exact I|discriminate|discriminate|]. constructor. now right. Qed.
Lemma t_opt tag t : fits_opt utf8 t -> field_typed (Optional tag TString) (set_opt tag t).
Proof. destruct t; cbn; intros H; constructor. now constructor. Qed.
Lemma t_some tag t v : typed t v -> field_typed (Optional tag t) (set tag v).
Proof. intros H. now constructor. Qed.
Lemma t_one tags vs tag t v : find (fun x => fst x =? tag) vs = Some (tag, t) -> In tag tags -> typed t v -> field_typed (Oneof tags vs) (set tag v).
Proof. intros. econstructor; eassumption. Qed.
Lemma t_string t : utf8 t = true -> typed TString (Blob t).
Proof. now constructor. Qed.
Lemma t_bool : typed TBool (Varint 1).
Proof. constructor. now right. Qed.
Lemma t_varint n : n < 2 ^ 64 -> typed TVarint (Varint n).
Proof. now constructor. Qed.
Lemma t_wrapped t : utf8 t = true -> typed (TMsg TextMsg) (wrapped t).
Proof. intros H. apply typed_msg. constructor; [now apply t_text|constructor]. Qed.

Lemma ascii_str s : Forall (fun b => b < 128) (str s) -> utf8 (str s) = true.
Proof. apply ascii. Qed.
Ltac ascii_now := apply ascii_str; cbn; repeat (constructor; [lia|]); constructor.

Ltac pick := eapply t_one; [reflexivity|cbn; tauto|].
Ltac fields := repeat first [apply Forall2_nil|apply Forall2_cons; [first [apply t_text; first [assumption|tauto]|apply t_num; first [assumption|tauto]|apply t_true|apply t_opt; assumption|idtac]|]].

Lemma code_bound k : code_of k < 2 ^ 64.
Proof. destruct k; reflexivity. Qed.
Lemma t_io m e : utf8 m = true -> utf8 (io_text e) = true -> typed (TMsg IoMsg) (Message IoMsg (from_io_error m e)).
Proof. intros Hm He. apply typed_msg. cbn [efields from_io_error]. fields. apply t_num, code_bound. Qed.
Lemma t_arrow e ctx : fits_arrow utf8 e -> fits_opt utf8 ctx -> (forall m, e <> AvroError m) -> typed (TMsg ArrowMsg) (Message ArrowMsg (from_arrow_error e ctx)).
Proof.
  intros He Hc HA. apply typed_msg. cbn [efields from_arrow_error]. fields.
  destruct e; cbn [fits_arrow] in He; try (pick; first [apply t_string; exact He|apply t_bool|apply t_varint; exact He|apply t_wrapped; exact He]).
  - pick. apply t_io; apply He.
  - now elim (HA m).
Qed.
Lemma t_parquet e : fits_parquet utf8 e -> typed (TMsg ParquetMsg) (Message ParquetMsg (from_parquet_error e)).
Proof.
  intros He. apply typed_msg. cbn [efields from_parquet_error]. fields. destruct e; cbn [fits_parquet] in He; pick;
    first [apply t_wrapped; exact He|apply t_varint; exact He|idtac].
  - apply typed_msg. cbn [efields]. fields.
  - apply t_wrapped. ascii_now.
Qed.
Lemma t_object_store e : fits_object_store utf8 e -> typed (TMsg ObjectStoreMsg) (Message ObjectStoreMsg (from_object_store_error e)).
Proof.
  intros He. apply typed_msg. cbn [efields from_object_store_error]. fields. destruct e; cbn [fits_object_store] in He; cbv zeta; pick; apply typed_msg; cbn [efields]; fields.
  all: apply t_text; ascii_now.
Qed.
Lemma t_parser e : match e with TokenizerError m | ParserError m => utf8 m = true | RecursionLimitExceeded => True end -> typed (TMsg ParserMsg) (Message ParserMsg (from_parser_error e)).
Proof. intros He. apply typed_msg. cbn [efields from_parser_error]. fields. destruct e; pick; first [apply t_string; exact He|apply t_bool]. Qed.
Lemma t_table t : fits_table utf8 t -> typed (TMsg TableMsg) (Message TableMsg (from_table_reference t)).
Proof. intros He. apply typed_msg. cbn [efields from_table_reference]. fields. destruct t; cbn [fits_table] in He; pick; apply typed_msg; cbn [efields]; fields. Qed.
Lemma t_column c : fits_column utf8 c -> typed (TMsg ColumnMsg) (Message ColumnMsg (from_column c)).
Proof.
  intros [Hr Hn]. apply typed_msg. cbn [efields from_column]. fields. destruct (relation c) as [t|]; [|constructor]. apply t_some. now apply t_table.
Qed.
Lemma t_schema e bt : fits_schema utf8 e -> fits_opt utf8 bt -> typed (TMsg SchemaMsg) (Message SchemaMsg (from_schema_error e bt)).
Proof.
  intros He Hb. apply typed_msg. cbn [efields from_schema_error]. fields. destruct e; cbn [fits_schema] in He; pick; apply typed_msg; cbn [efields]; fields.
  - apply t_some. now apply t_column.
  - apply t_some. now apply t_table.
  - apply t_some. now apply t_column.
  - constructor. apply Forall_map. eapply Forall_impl; [|apply He]. intros c Hc. split; [reflexivity|]. now apply t_column.
Qed.
Lemma all_fits {P : error -> Prop} es : fold_right (fun e p => P e /\ p) True es <-> Forall P es.
Proof. split; [induction es as [|e es IH]; cbn; intros H; constructor; tauto|induction 1; cbn; tauto]. Qed.
Lemma t_error e : fits utf8 e -> no_avro e -> typed (TMsg ErrorMsg) (Message ErrorMsg (from_datafusion_error e)).
Proof.
  induction e as [e Hl|c e IH|d e IH|es IH|e IH] using error_nested; intros He Ha; apply typed_msg; cbn [efields].
  - destruct e; try contradiction; cbn [from_datafusion_error]; (apply Forall2_cons; [|apply Forall2_nil]); cbn [fits no_avro] in He, Ha; pick; try (apply t_string; exact He).
    + apply t_arrow; [apply He|apply He|]. intros m ->. exact Ha.
    + now apply t_parquet.
    + now apply t_object_store.
    + apply t_io; [apply ascii; constructor|exact He].
    + apply typed_msg. cbn [efields]. apply Forall2_cons; [|apply Forall2_cons; [apply t_opt; apply He|apply Forall2_nil]]. apply t_some. apply t_parser. apply He.
    + apply t_schema; apply He.
  - cbn [from_datafusion_error]. apply Forall2_cons; [|apply Forall2_nil]. pick. apply typed_msg. cbn [efields]. destruct He as [Hc He]. fields. apply t_some. now apply IH.
  - cbn [from_datafusion_error]. apply Forall2_cons; [|apply Forall2_nil]. pick. apply IH; [apply He|exact Ha].
  - cbn [from_datafusion_error]. apply Forall2_cons; [|apply Forall2_nil]. pick. apply typed_msg. cbn [efields]. fields. constructor. apply Forall_map. cbn [fits no_avro] in He, Ha. rewrite all_fits in He. rewrite all_fits in Ha.
    rewrite Forall_forall in IH, He, Ha |- *. intros e Hin. split; [reflexivity|]. now apply IH; [|apply He|apply Ha].
  - cbn [from_datafusion_error]. apply Forall2_cons; [|apply Forall2_nil]. pick. now apply IH.
Qed.
End Typed.

(** ** Levels *)
Lemma fold_max_le {A} (f : A -> nat) l k : Forall (fun a => (f a <= k)%nat) l -> (fold_right (fun a m => Nat.max (f a) m) 0%nat l <= k)%nat.
Proof. induction 1; cbn; lia. Qed.
Lemma le_fold_max {A} (f : A -> nat) l a : In a l -> (f a <= fold_right (fun a m => Nat.max (f a) m) 0%nat l)%nat.
Proof. induction l as [|b l IH]; [contradiction|]. intros [->|H]; cbn; [lia|]. specialize (IH H). lia. Qed.
Definition clevels (c : content emsg) : nat := fold_right (fun x m => Nat.max (levels emsg (snd x)) m) 0%nat c.
Lemma lm1 n a : levels emsg (Message n [a]) = S (clevels a).
Proof. unfold clevels. cbn [levels fold_right]. lia. Qed.
Lemma lm2 n a b : levels emsg (Message n [a; b]) = S (Nat.max (clevels a) (clevels b)).
Proof. unfold clevels. cbn [levels fold_right]. lia. Qed.
Lemma cl_set tag v : clevels (set tag v) = levels emsg v.
Proof. unfold clevels, set. cbn [fold_right snd]. lia. Qed.
Lemma cl_text tag t : clevels (set_text tag t) = 0%nat.
Proof. reflexivity. Qed.
Lemma cl_opt tag t : clevels (set_opt tag t) = 0%nat.
Proof. now destruct t. Qed.
Lemma cl_all {A} tag (f : A -> value emsg) l k : Forall (fun a => (levels emsg (f a) <= k)%nat) l -> (clevels (map (fun a => (tag, f a)) l) <= k)%nat.
Proof. intros H. unfold clevels. apply fold_max_le. apply Forall_map. exact H. Qed.
Lemma l_table t : (levels emsg (Message TableMsg (from_table_reference t)) <= 2)%nat.
Proof. destruct t; cbn; lia. Qed.
Lemma l_column c : (levels emsg (Message ColumnMsg (from_column c)) <= 3)%nat.
Proof. destruct c as [[t|] n]; [|cbn; lia]. pose proof (l_table t) as H. unfold from_column; cbn [relation column_name]. rewrite lm2, cl_set, cl_text. lia. Qed.
Lemma l_schema e bt : (levels emsg (Message SchemaMsg (from_schema_error e bt)) <= 5)%nat.
Proof.
  destruct e as [c|q n|n|c cs]; unfold from_schema_error; rewrite lm2, cl_opt, cl_set.
  - pose proof (l_column c). rewrite lm1, cl_set. lia.
  - pose proof (l_table q). rewrite lm2, cl_set, cl_text. lia.
  - cbn. lia.
  - pose proof (l_column c). rewrite lm2, cl_set. assert (clevels (map (fun c => (2%N, Message ColumnMsg (from_column c))) cs) <= 3)%nat; [|lia].
    apply (cl_all 2). rewrite Forall_forall. intros c' _. apply l_column.
Qed.
Lemma l_leaf e : match e with Context _ _ | Diagnostic _ _ | Collection _ | Shared _ => False | _ => True end ->
  (levels emsg (Message ErrorMsg (from_datafusion_error e)) <= 6)%nat.
Proof.
  intros H. destruct e; try contradiction; try (cbn; lia).
  - destruct ctx; destruct e; cbn; lia.
  - destruct e; cbn; lia.
  - destruct e; cbn; lia.
  - destruct backtrace; destruct e; cbn; lia.
  - pose proof (l_schema e backtrace) as G. cbn [from_datafusion_error]. rewrite lm1, cl_set. lia.
Qed.
Lemma l_error e : (levels emsg (Message ErrorMsg (from_datafusion_error e)) <= 6 + nesting e)%nat.
Proof.
  induction e as [e Hl|c e IH|d e IH|es IH|e IH] using error_nested; [pose proof (l_leaf e Hl); lia|..];
    cbn [from_datafusion_error nesting]; rewrite lm1, cl_set.
  - rewrite lm2, cl_set, cl_text. lia.
  - lia.
  - rewrite lm1. set (k := fold_right (fun e m => Nat.max (nesting e) m) 0%nat es).
    assert (clevels (map (fun e => (1%N, Message ErrorMsg (from_datafusion_error e))) es) <= 6 + k)%nat; [|lia].
    apply (cl_all 1). rewrite Forall_forall in IH |- *. intros e Hin. specialize (IH e Hin). pose proof (le_fold_max nesting es e Hin). subst k. lia.
  - lia.
Qed.

(** ** Values *)
Lemma kind_back k : kind_of (code_of k) = match k with UnlistedKind _ => OtherKind | k => k end.
Proof. destruct k; reflexivity. Qed.
Lemma io_back m e : to_io_error (from_io_error m e) = (arrives_io e, m).
Proof. destruct e as [k t]. transitivity ({| kind := kind_of (code_of k); io_text := t |}, m); [reflexivity|]. rewrite kind_back. now destruct k. Qed.
Lemma opt_back i m t tag : at_ i m = set_opt tag t -> get_opt i m = t.
Proof. intros E. unfold get_opt. rewrite E. now destruct t. Qed.
Lemma arrow_back e ctx : to_arrow_error (from_arrow_error e ctx) = (arrives_arrow e, ctx).
Proof.
  unfold to_arrow_error. replace (get_opt 0 (from_arrow_error e ctx)) with ctx by (symmetry; eapply opt_back; reflexivity).
  destruct e; try reflexivity. cbn [from_arrow_error at_ nth set v_message]. now rewrite io_back.
Qed.
Lemma parquet_back e : to_parquet_error (from_parquet_error e) = arrives_parquet e.
Proof. destruct e; reflexivity. Qed.
Lemma store_back s : parse_store s = arrives_store s.
Proof.
  unfold parse_store, arrives_store. destruct (in_dec _ s store_names) as [H|H].
  - replace (existsb _ known_stores) with true; [reflexivity|]. symmetry. apply existsb_exists. exists s. split; [exact H|]. now destruct (list_eq_dec _ s s).
  - replace (existsb _ known_stores) with false; [reflexivity|]. symmetry. apply not_true_is_false. intros E. apply existsb_exists in E as (k & Hk & E).
    destruct (list_eq_dec _ k s) as [->|]; [now apply H|discriminate].
Qed.
Lemma object_store_back e : to_object_store_error (from_object_store_error e) = arrives_object_store e.
Proof.
  destruct e; try reflexivity; cbn [from_object_store_error to_object_store_error at_ nth set v_message get_text set_text v_text arrives_object_store]; now rewrite store_back.
Qed.
Lemma parser_back e : to_parser_error (from_parser_error e) = e.
Proof. now destruct e. Qed.
Lemma table_back t : to_table_reference (from_table_reference t) = t.
Proof. now destruct t. Qed.
Lemma column_back c : to_column (from_column c) = c.
Proof. destruct c as [[t|] n]; [|reflexivity]. unfold to_column. cbn [from_column relation column_name at_ nth set v_message]. now rewrite table_back. Qed.
Lemma schema_back e bt : to_schema_error (from_schema_error e bt) = (e, bt).
Proof.
  unfold to_schema_error. replace (get_opt 0 (from_schema_error e bt)) with bt by (symmetry; eapply opt_back; reflexivity).
  destruct e; cbn [from_schema_error at_ nth set v_message column_or_empty get_text set_text v_text]; rewrite ?column_back, ?table_back; try reflexivity.
  do 2 f_equal. rewrite map_map. rewrite <- (map_id valid_fields) at 2. apply map_ext. intros c. cbn [snd v_message]. apply column_back.
Qed.
Lemma value_back e : to_datafusion_err (Message ErrorMsg (from_datafusion_error e)) = arrives_as e.
Proof.
  induction e as [e Hl|c e IH|d e IH|es IH|e IH] using error_nested.
  - destruct e; try contradiction; try reflexivity; cbn [from_datafusion_error set to_datafusion_err v_message arrives_as].
    + now rewrite arrow_back.
    + now rewrite parquet_back.
    + now rewrite object_store_back.
    + now rewrite io_back.
    + change (SQL (to_parser_error (from_parser_error e)) (get_opt 1 [set 1 (Message ParserMsg (from_parser_error e)); set_opt 2 backtrace]) = SQL e backtrace).
      rewrite parser_back. f_equal. eapply opt_back. reflexivity.
    + now rewrite schema_back.
  - change (Context c (to_datafusion_err (Message ErrorMsg (from_datafusion_error e))) = Context c (arrives_as e)). now rewrite IH.
  - change (Diagnostic [] (to_datafusion_err (Message ErrorMsg (from_datafusion_error e))) = Diagnostic [] (arrives_as e)). now rewrite IH.
  - change (Collection (map (fun x => to_datafusion_err (snd x)) (map (fun e => (1, Message ErrorMsg (from_datafusion_error e))) es)) = Collection (map arrives_as es)).
    f_equal. rewrite map_map. cbn [snd]. apply map_ext_in. intros e Hin. rewrite Forall_forall in IH. now apply IH.
  - change (Shared (to_datafusion_err (Message ErrorMsg (from_datafusion_error e))) = Shared (arrives_as e)). now rewrite IH.
Qed.

Lemma kept_arrives e : kept e -> arrives_as e = without_diagnostics e.
Proof.
  induction e as [e Hl|c e IH|d e IH|es IH|e IH] using error_nested; intros HK.
  - destruct e; try contradiction; try reflexivity; cbn [arrives_as without_diagnostics].
    + destruct e; try reflexivity. destruct e as [k t]. cbn [kept kind] in HK. destruct k; try contradiction; reflexivity.
    + destruct e; try contradiction; reflexivity.
    + destruct e; try contradiction; try reflexivity; cbn [kept arrives_object_store] in *; unfold arrives_store;
        (destruct (in_dec _ _ store_names); [reflexivity|contradiction]).
    + destruct e as [k t]. cbn [kept kind] in HK. destruct k; try contradiction; reflexivity.
  - cbn in *. now rewrite IH.
  - cbn in *. now rewrite IH.
  - cbn [arrives_as without_diagnostics kept] in *. rewrite all_fits in HK. f_equal. apply map_ext_in. intros e Hin. rewrite Forall_forall in IH, HK. now apply IH; [|apply HK].
  - cbn in *. now rewrite IH.
Qed.
Lemma kept_no_avro e : kept e -> no_avro e.
Proof.
  induction e as [e Hl|c e IH|d e IH|es IH|e IH] using error_nested; intros HK; try (now apply IH).
  - destruct e; try contradiction; try exact I. destruct e; try exact I. exact HK.
  - cbn [kept no_avro] in *. rewrite all_fits in HK. rewrite all_fits. rewrite Forall_forall in *. intros e Hin. now apply IH; [|apply HK].
Qed.
Lemma undiagnosed_kept e : kept e -> kept (without_diagnostics e).
Proof.
  induction e as [e Hl|c e IH|d e IH|es IH|e IH] using error_nested; intros HK; try (now apply IH).
  - destruct e; try contradiction; exact HK.
  - cbn [kept without_diagnostics] in *. rewrite all_fits in HK. rewrite all_fits. apply Forall_map. rewrite Forall_forall in *. intros e Hin. now apply IH; [|apply HK].
Qed.
Lemma undiagnosed_nesting e : nesting (without_diagnostics e) = nesting e.
Proof.
  induction e as [e Hl|c e IH|d e IH|es IH|e IH] using error_nested; try (destruct e; try contradiction; reflexivity); try (cbn; now rewrite IH).
  cbn. do 2 f_equal. induction IH as [|e es He _ IHs]; [reflexivity|]. cbn. now rewrite He, IHs.
Qed.
Lemma undiagnosed_twice e : without_diagnostics (without_diagnostics e) = without_diagnostics e.
Proof.
  induction e as [e Hl|c e IH|d e IH|es IH|e IH] using error_nested; try (destruct e; try contradiction; reflexivity); try (cbn; now rewrite IH).
  cbn. f_equal. rewrite map_map. apply map_ext_in. intros e Hin. rewrite Forall_forall in IH. now apply IH.
Qed.
Lemma undiagnosed_fits utf8 e : utf8 [] = true -> fits utf8 e -> fits utf8 (without_diagnostics e).
Proof.
  intros H0. induction e as [e Hl|c e IH|d e IH|es IH|e IH] using error_nested; intros HF.
  - destruct e; try contradiction; exact HF.
  - destruct HF as [H1 H2]. split; [exact H1|now apply IH].
  - destruct HF as [H1 H2]. split; [exact H0|now apply IH].
  - cbn [fits without_diagnostics] in *. rewrite all_fits in HF. rewrite all_fits. apply Forall_map. rewrite Forall_forall in *. intros e Hin. now apply IH; [|apply HF].
  - now apply IH.
Qed.
(** The encoding forgets diagnostics, so its size does not depend on them. *)
Lemma undiagnosed_encoding e : from_datafusion_error (without_diagnostics e) = from_datafusion_error e.
Proof.
  induction e as [e Hl|c e IH|d e IH|es IH|e IH] using error_nested; try (destruct e; try contradiction; reflexivity); try (cbn; now rewrite IH).
  cbn [without_diagnostics from_datafusion_error]. rewrite map_map.
  erewrite map_ext_in; [reflexivity|]. intros e Hin. rewrite Forall_forall in IH. cbv beta. now rewrite IH.
Qed.

Lemma answered_arrives utf8 status_text decode_error_text : (forall s, Forall (fun b => b < 128) s -> utf8 s = true) ->
  forall e, fits utf8 e -> no_avro e -> (nesting e <= 95)%nat -> N.of_nat (List.length (details (error_to_status e))) < 2 ^ 64 ->
  answered utf8 status_text decode_error_text e = Ok (arrives_as e).
Proof.
  intros HA e HF HV HN HS. unfold answered, map_status_to_error, status_to_error. cbn [error_to_status internal message negb].
  destruct (list_eq_dec N.eq_dec (str status_message) (str status_message)) as [_|E]; [|now elim E]. cbn [negb].
  cbn [error_to_status details] in *. rewrite (decode_encode emsg efields utf8 errors_apart).
  - cbn [bind]. now rewrite value_back.
  - pose proof (t_error utf8 HA e HF HV) as H. now inversion H.
  - pose proof (l_error e) as H. change (levels emsg (Message ErrorMsg (from_datafusion_error e))) with (S (inner_levels emsg (from_datafusion_error e))) in H. lia.
  - exact HS.
Qed.

(** ** No panic *)
Lemma errors_good m : True -> Forall (field_good emsg (fun _ => True)) (efields m).
Proof. intros _. destruct m; cbn [efields]; repeat first [exact I | discriminate | (eexists; reflexivity) | split | constructor]. Qed.
