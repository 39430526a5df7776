(** Proofs about sending plans with users' codecs. *)
From Verif Require Import Base WireModel WireSpec WireProofs CodecModel CodecSpec CodecProofs UserCodecModel UserCodecSpec.
From Coq Require Import NArith Lia.
Local Open Scope N_scope.

(** ** Lists *)
Section Traverse.
Context {A B : Type}.
Lemma traverse_inv (f : A -> Res B) l r : traverse f l = Ok r -> Forall2 (fun a b => f a = Ok b) l r.
Proof.
  revert r. induction l as [|a l IH]; cbn [traverse]; intros r H.
  - injection H as <-. constructor.
  - destruct (f a) as [b| |] eqn:E; cbn [bind] in H; try discriminate. destruct (traverse f l) as [bs| |]; cbn [bind] in H; try discriminate.
    injection H as <-. constructor; [exact E|now apply IH].
Qed.
Lemma traverse_ok (f : A -> Res B) l r : Forall2 (fun a b => f a = Ok b) l r -> traverse f l = Ok r.
Proof. induction 1 as [|a b l r E H IH]; cbn [traverse]; [reflexivity|]. now rewrite E, IH. Qed.
Lemma traverse_all (f : A -> Res B) l : Forall (fun a => exists b, f a = Ok b) l -> exists r, traverse f l = Ok r.
Proof.
  induction 1 as [|a l (b & E) H (r & IH)]; cbn [traverse]; [now eexists|]. rewrite E, IH. now eexists.
Qed.
End Traverse.

(** A result that is [a], or an error for which [why] holds. *)
Definition yields {A} (why : Prop) (r : Res A) (a : A) : Prop := r = Ok a \/ (why /\ exists e, r = Err e).
Lemma traverse_yields {A B} why (g : B -> Res A) (h : A -> A) (l : list A) (m : list B) :
  Forall2 (fun a b => yields why (g b) (h a)) l m -> yields why (traverse g m) (map h l).
Proof.
  induction 1 as [|a b l m Ha H IH]; cbn [traverse map]; [now left|].
  destruct Ha as [Ha|(w & e & Ha)]; rewrite Ha; cbn [bind]; [|right; split; [exact w|now exists e]].
  destruct IH as [IH|(w & e & IH)]; rewrite IH; cbn [bind]; [now left|right; split; [exact w|now exists e]].
Qed.
Lemma yields_bind {A B} why (r : Res A) (f : A -> Res B) a b : yields why r a -> yields why (f a) b -> yields why (bind r f) b.
Proof.
  intros [->|(w & e & ->)] H; cbn [bind]; [exact H|]. right. split; [exact w|now exists e].
Qed.
Lemma Forall2_combine {A B} (P : A -> Prop) (R S : A -> B -> Prop) l m :
  (forall a b, P a -> R a b -> S a b) -> Forall P l -> Forall2 R l m -> Forall2 S l m.
Proof.
  intros HI HP HR. revert HP. induction HR as [|a b l m H HR IH]; intros HP; constructor.
  - apply HI; [now apply Forall_inv in HP|exact H].
  - apply IH. now apply Forall_inv_tail in HP.
Qed.
Lemma Forall2_strengthen {A B} (R S : A -> B -> Prop) l m : (forall a b, In a l -> In b m -> R a b -> S a b) -> Forall2 R l m -> Forall2 S l m.
Proof.
  intros HI HR. revert HI. induction HR as [|a b l m H HR IH]; intros HI; constructor.
  - apply HI; [now left|now left|exact H].
  - apply IH. intros x y Hx Hy. apply HI; now right.
Qed.

(** ** The tuple *)
Definition tuple_bytes (position : N) (data : list N) : list N :=
  encode tuple_msg tuple_fields DataEncoderTuple [[(1, Varint position)]; [(2, Blob data)]].
Lemma tuple_apart m : told_apart tuple_msg (tuple_fields m).
Proof. split; cbn; repeat constructor; cbn; try lia; intuition discriminate. Qed.
Lemma tuple_back utf8 position data : position < 2 ^ 64 -> N.of_nat (List.length (tuple_bytes position data)) < 2 ^ 64 ->
  decode tuple_msg tuple_fields utf8 DataEncoderTuple (tuple_bytes position data) = Ok [[(1, Varint position)]; [(2, Blob data)]].
Proof.
  intros HP HN. apply decode_encode; [apply tuple_apart| |cbn; lia|exact HN].
  cbn [tuple_fields]. repeat constructor; try discriminate; assumption.
Qed.
Lemma tuple_holds position data : (List.length data <= List.length (tuple_bytes position data))%nat.
Proof.
  unfold tuple_bytes, encode. cbn [tuple_fields map write_fields write_content]. rewrite !app_length.
  cbn [write_field write_content map fst snd is_default payload]. destruct data as [|b data]; [cbn; lia|].
  unfold write_plain. cbn [flat_map fst snd]. rewrite !app_length. unfold put_len. rewrite app_length. lia.
Qed.
Lemma tuple_zero : tuple_bytes 0 [] = [].
Proof. reflexivity. Qed.

Section Proofs.
Variables (native builtin custom user_expr function : Type) (function_name : function -> list N).
Variables (url schema : Type) (url_to_string : url -> list N) (url_parse : list N -> option url).
Variables (schema_to_bytes : schema -> Res (list N)) (schema_from_bytes : list N -> Res schema) (utf8 : list N -> bool).
Variables (partitioning_pack : N * list (expr_proto builtin) * N -> list N) (partitioning_unpack : list N -> Res (N * list (expr_proto builtin) * N)).
Notation tree := (tree native builtin custom user_expr function url schema).
Notation expr := (expr builtin user_expr function).
Notation partitioning := (partitioning builtin user_expr function).
Notation node := (node url tree partitioning schema).
Notation codec := (codec native builtin custom user_expr function url schema).
Notation honest := (honest native builtin custom user_expr function url schema).
Notation first_accepting := (first_accepting native builtin custom user_expr function url schema).
Notation compose_encode := (compose_encode native builtin custom user_expr function url schema).
Notation compose_decode := (compose_decode native builtin custom user_expr function url schema utf8).
Notation composed := (composed native builtin custom user_expr function url schema utf8).
Notation expr_to_proto := (expr_to_proto native builtin custom user_expr function function_name url schema).
Notation expr_from_proto := (expr_from_proto native builtin custom user_expr function url schema).
Notation partitioning_to_bytes := (partitioning_to_bytes native builtin custom user_expr function function_name url schema partitioning_pack).
Notation partitioning_from_bytes := (partitioning_from_bytes native builtin custom user_expr function url schema partitioning_unpack).
Notation bare := (bare native builtin custom user_expr function url schema).
Notation distributed_encode := (distributed_encode native builtin custom user_expr function function_name url schema url_to_string schema_to_bytes partitioning_pack).
Notation distributed_decode := (distributed_decode native builtin custom user_expr function url schema url_parse schema_from_bytes utf8 partitioning_unpack).
Notation distributed_codec := (distributed_codec native builtin custom user_expr function function_name url schema url_to_string url_parse schema_to_bytes schema_from_bytes utf8 partitioning_pack partitioning_unpack).
Notation new_combined_with_user := (new_combined_with_user native builtin custom user_expr function function_name url schema url_to_string url_parse schema_to_bytes schema_from_bytes utf8 partitioning_pack partitioning_unpack).
Notation plan_to_proto := (plan_to_proto native builtin custom user_expr function function_name url schema).
Notation plan_from_proto := (plan_from_proto native builtin custom user_expr function url schema).
Notation arrived := (arrived native builtin custom user_expr function url schema).
Notation in_plan := (in_plan native builtin custom user_expr function url schema).
Notation in_expr := (in_expr builtin user_expr function).
Notation with_inputs := (with_inputs native builtin custom user_expr function url schema).
Notation node_with_inputs := (node_with_inputs native builtin custom user_expr function url schema).
Notation exprs_of := (exprs_of native builtin custom user_expr function url schema).
Notation knows := (knows function function_name).

(** ** Induction *)
Fixpoint expr_rect_nested (P : expr -> Prop)
    (H1 : forall x l, Forall P l -> P (Builtin x l)) (H2 : forall f l, Forall P l -> P (Call f l)) (H3 : forall x l, Forall P l -> P (UserExpr x l))
    (e : expr) : P e :=
  let all := fix all (l : list expr) : Forall P l :=
               match l with [] => Forall_nil _ | a :: l => Forall_cons a (expr_rect_nested P H1 H2 H3 a) (all l) end in
  match e with Builtin x l => H1 x l (all l) | Call f l => H2 f l (all l) | UserExpr x l => H3 x l (all l) end.
Fixpoint tree_rect_nested (P : tree -> Prop)
    (H1 : forall x es cs, Forall P cs -> P (Native x es cs)) (H2 : forall x cs, Forall P cs -> P (Custom x cs))
    (H3 : forall n, Forall P (node_children _ _ _ _ n) -> P (Own n)) (t : tree) : P t :=
  let all := fix all (l : list tree) : Forall P l :=
               match l with [] => Forall_nil _ | a :: l => Forall_cons a (tree_rect_nested P H1 H2 H3 a) (all l) end in
  match t with
  | Native x es cs => H1 x es cs (all cs)
  | Custom x cs => H2 x cs (all cs)
  | Own n =>
      H3 n (match n as n return Forall P (node_children _ _ _ _ n) with
            | Boundary _ _ _ _ k s p (LocalStage _ _ q m i tasks) => Forall_cons i (tree_rect_nested P H1 H2 H3 i) (Forall_nil _)
            | Boundary _ _ _ _ k s p (RemoteStage _ _ q m w) => Forall_nil _
            | Union _ _ _ _ count cs w m => all cs
            | Broadcast _ _ _ _ i c => Forall_cons i (tree_rect_nested P H1 H2 H3 i) (Forall_nil _)
            | Sampler _ _ _ _ i => Forall_cons i (tree_rect_nested P H1 H2 H3 i) (Forall_nil _)
            end)
  end.

(** ** Composition *)
Definition clean (enc : codec -> list N -> list N * Res unit) (c : codec) : Prop := forall buf buf' e, enc c buf = (buf', Err e) -> buf' = buf.
Lemma first_accepting_inv enc : forall codecs position last data q d, Forall (clean enc) codecs ->
  first_accepting enc position last data codecs = Ok (q, d) ->
  exists i c, nth_error codecs i = Some c /\ q = position + N.of_nat i /\ enc c data = (d, Ok tt).
Proof.
  induction codecs as [|c codecs IH]; intros position last data q d HC H; cbn [UserCodecModel.first_accepting] in H; [discriminate|].
  destruct (enc c data) as [data' [[]|e|e]] eqn:E; try discriminate.
  - injection H as <- <-. exists O, c. split; [reflexivity|]. split; [lia|exact E].
  - apply (Forall_inv HC) in E. subst data'. destruct (IH _ _ _ _ _ (Forall_inv_tail HC) H) as (i & c' & Hi & Hq & He).
    exists (S i), c'. split; [exact Hi|]. split; [lia|exact He].
Qed.
Lemma first_accepting_more enc more : forall codecs position last data r,
  first_accepting enc position last data codecs = Ok r -> first_accepting enc position last data (codecs ++ more) = Ok r.
Proof.
  induction codecs as [|c codecs IH]; intros position last data r H; cbn [UserCodecModel.first_accepting app] in *; [discriminate|].
  destruct (enc c data) as [data' [[]|e|e]]; try discriminate; [exact H|now apply IH].
Qed.
Lemma first_accepting_some enc : forall codecs position last data,
  Forall (fun c => forall buf e, snd (enc c buf) <> Panic e) codecs -> Exists (fun c => forall buf, snd (enc c buf) = Ok tt) codecs ->
  exists r, first_accepting enc position last data codecs = Ok r.
Proof.
  induction codecs as [|c codecs IH]; intros position last data HP HE; [inversion HE|]. cbn [UserCodecModel.first_accepting].
  destruct (enc c data) as [data' [[]|e|e]] eqn:E.
  - now eexists.
  - apply IH; [now apply Forall_inv_tail in HP|]. inversion HE as [? ? H|]; subst; [|assumption]. specialize (H data). now rewrite E in H.
  - apply Forall_inv in HP. specialize (HP data e). now rewrite E in HP.
Qed.

(** The worker lacks a codec of the coordinator. *)
Definition lacking (cs ws : list codec) : Prop := exists i c, nth_error cs i = Some c /\ nth_error ws i = None.
Definition agree (cs ws : list codec) : Prop := forall i c, nth_error cs i = Some c -> nth_error ws i = Some c \/ nth_error ws i = None.

Lemma composed_back {A} enc (dec : codec -> list N -> Res A) d0 d0' cs ws buf a :
  few_codecs cs -> agree cs ws -> Forall (clean enc) (d0 :: cs) ->
  compose_encode enc (d0 :: cs) [] = (buf, Ok tt) -> small buf ->
  (forall data, enc d0 [] = (data, Ok tt) -> small data -> dec d0' data = Ok a) ->
  (forall c data, In c cs -> (exists e, snd (enc d0 []) = Err e) -> enc c [] = (data, Ok tt) -> dec c data = Ok a) ->
  yields (lacking cs ws) (compose_decode dec (d0' :: ws) buf) a.
Proof.
  intros HL HA HC HE HN H0 H1. unfold few_codecs, small in *. unfold UserCodecModel.compose_encode in HE.
  destruct (first_accepting enc 0 _ [] (d0 :: cs)) as [[q data]| |] eqn:EF; try discriminate. apply (f_equal fst) in HE; cbn [fst] in HE; subst buf.
  cbn [app] in HN |- *. pose proof EF as EF'. apply first_accepting_inv in EF as (i & c & Hi & Hq & He); [|exact HC].
  assert (Hlt : (i < S (List.length cs))%nat) by (apply (nth_error_Some (d0 :: cs)); congruence).
  assert (E : q mod 2 ^ 32 = N.of_nat i) by (rewrite Hq; rewrite N.mod_small; lia). rewrite E in HN |- *. clear E.
  unfold UserCodecModel.compose_decode. change (encode _ _ _ _) with (tuple_bytes (N.of_nat i) data) in HN |- *.
  rewrite tuple_back; [|lia|exact HN]. cbn [bind]. rewrite Nat2N.id. pose proof (tuple_holds (N.of_nat i) data) as HT.
  destruct i as [|i]; cbn [nth_error] in *.
  - injection Hi as <-. left. apply H0; [exact He|]. lia.
  - destruct (HA i c Hi) as [HW|HW]; rewrite HW.
    + left. apply H1; [now apply nth_error_In in Hi| |exact He]. cbn [UserCodecModel.first_accepting] in EF'.
      destruct (enc d0 []) as [data0 [[]|e|e]]; [|now exists e|discriminate]. injection EF' as <- <-. lia.
    + right. split; [exists i, c; split; assumption|]. eexists. reflexivity.
Qed.

(** ** Expressions *)
Lemma honest_clean_exprs e cs r : Forall honest cs -> Forall (clean (fun c => try_encode_expr c e)) (distributed_codec r :: cs).
Proof.
  intros H. constructor.
  - intros buf buf' m E. cbn in E. unfold no_expr in E. now injection E as <- _.
  - eapply Forall_impl; [|exact H]. intros c Hc buf buf' m. now apply (refuses_exprs _ _ _ _ _ _ _ _ Hc).
Qed.
Lemma udf_unused r cs f buf : try_encode_udf (new_combined_with_user r cs) f buf = (buf, Ok tt).
Proof. unfold UserCodecModel.new_combined_with_user, UserCodecModel.composed, UserCodecModel.compose_encode. cbn [try_encode_udf UserCodecModel.first_accepting UserCodecModel.distributed_codec any_udf]. unfold any_udf. cbn iota. change (encode _ _ _ _) with (tuple_bytes 0 []). rewrite tuple_zero. now rewrite app_nil_r. Qed.

Section Back.
Variables (cs ws : list codec) (registry : list N -> option function).
Hypothesis few : few_codecs cs.
Hypothesis honest_cs : Forall honest cs.
Hypothesis agreeing : agree cs ws.
Notation coordinator := (new_combined_with_user (fun _ => None) cs).
Notation worker := (new_combined_with_user registry ws).
Notation yields := (yields (lacking cs ws)).

Lemma exprs_back_all (P : expr -> Prop) l ps :
  Forall (fun a => forall p, expr_to_proto coordinator a = Ok p -> Forall small (expr_blobs _ p) -> P a -> yields (expr_from_proto worker registry p) a) l ->
  Forall P l -> traverse (expr_to_proto coordinator) l = Ok ps -> Forall small (flat_map (expr_blobs _) ps) ->
  yields (traverse (expr_from_proto worker registry) ps) l.
Proof.
  intros HI HP HE HS. apply traverse_inv in HE. rewrite <- (map_id l). apply traverse_yields.
  eapply Forall2_strengthen; [|exact HE]. intros a p Ha Hp E. cbv beta. rewrite Forall_forall in HI, HP. apply HI; [exact Ha|exact E| |now apply HP].
  rewrite Forall_forall in HS |- *. intros b Hb. apply HS. apply in_flat_map. exists p. split; assumption.
Qed.
Lemma known_below e : (forall f l, in_expr (Call f l) e -> knows registry f) -> Forall (fun a => forall f l, in_expr (Call f l) a -> knows registry f) (args e).
Proof. intros H. apply Forall_forall. intros a Ha f l Hf. apply (H f l). eapply in_expr_below; eassumption. Qed.

Lemma expr_back e : forall p, expr_to_proto coordinator e = Ok p -> Forall small (expr_blobs _ p) ->
  (forall f l, in_expr (Call f l) e -> knows registry f) -> yields (expr_from_proto worker registry p) e.
Proof.
  induction e as [x l IH|f l IH|x l IH] using expr_rect_nested; intros p HE HS HK; pose proof (known_below _ HK) as HK'; cbn [args] in HK'.
  - cbn [UserCodecModel.expr_to_proto] in HE. destruct (traverse _ l) as [ps| |] eqn:E; cbn [bind] in HE; try discriminate. injection HE as <-.
    cbn [UserCodecModel.expr_from_proto]. cbn [expr_blobs] in HS.
    eapply yields_bind; [eapply exprs_back_all; [|exact HK'|exact E|exact HS]|now left]. exact IH.
  - cbn [UserCodecModel.expr_to_proto] in HE. rewrite udf_unused in HE. cbn [bind] in HE.
    destruct (traverse _ l) as [ps| |] eqn:E; cbn [bind] in HE; try discriminate. injection HE as <-.
    cbn [UserCodecModel.expr_from_proto]. cbn [expr_blobs app] in HS.
    assert (Hf : registry (function_name f) = Some f) by (apply (HK f l), in_expr_here). rewrite Hf. cbn [bind].
    eapply yields_bind; [eapply exprs_back_all; [|exact HK'|exact E|exact HS]|now left]. exact IH.
  - cbn [UserCodecModel.expr_to_proto] in HE.
    destruct (try_encode_expr coordinator (UserExpr x l) []) as [buf r] eqn:EB. destruct r as [[]| |]; cbn [bind] in HE; try discriminate.
    destruct (traverse _ l) as [ps| |] eqn:E; cbn [bind] in HE; try discriminate. injection HE as <-.
    cbn [UserCodecModel.expr_from_proto]. cbn [expr_blobs] in HS.
    eapply yields_bind; [eapply exprs_back_all; [|exact HK'|exact E|exact (Forall_inv_tail HS)]; exact IH|].
    cbn [UserCodecModel.new_combined_with_user UserCodecModel.composed try_encode_expr try_decode_expr] in EB |- *.
    eapply (composed_back (fun c => try_encode_expr c (UserExpr x l)) (fun c data => try_decode_expr c data l)); [exact few|exact agreeing| |exact EB|exact (Forall_inv HS)| |].
    + now apply honest_clean_exprs.
    + intros data He. cbn in He. unfold no_expr in He. discriminate.
    + intros c data Hc Hr He. rewrite Forall_forall in honest_cs. apply (decodes_exprs _ _ _ _ _ _ _ _ (honest_cs c Hc)) in He as (b & -> & HB).
      cbn [app]. now rewrite (HB l) by reflexivity.
Qed.
Lemma exprs_back l ps : traverse (expr_to_proto coordinator) l = Ok ps -> Forall small (flat_map (expr_blobs _) ps) ->
  (forall e f a, In e l -> in_expr (Call f a) e -> knows registry f) -> yields (traverse (expr_from_proto worker registry) ps) l.
Proof.
  intros HE HS HK. eapply exprs_back_all; [|  |exact HE|exact HS].
  - apply Forall_forall. intros a _ p. apply expr_back.
  - apply Forall_forall. intros a Ha f l'. now apply HK.
Qed.

(** Expressions sent with the crate's codec alone. *)
Lemma bare_back e : forall p, expr_to_proto bare e = Ok p -> (forall f l, in_expr (Call f l) e -> knows registry f) -> expr_from_proto bare registry p = Ok e.
Proof.
  assert (HA : forall l ps, Forall (fun a => forall p, expr_to_proto bare a = Ok p -> (forall f l, in_expr (Call f l) a -> knows registry f) -> expr_from_proto bare registry p = Ok a) l ->
            Forall (fun a => forall f l, in_expr (Call f l) a -> knows registry f) l -> traverse (expr_to_proto bare) l = Ok ps -> traverse (expr_from_proto bare registry) ps = Ok l).
  { intros l ps HI HP HE. apply traverse_inv in HE. apply traverse_ok. revert HI HP. induction HE as [|a b l ps H HE IH]; intros HI HP; constructor.
    - apply (Forall_inv HI); [exact H|exact (Forall_inv HP)].
    - apply IH; eapply Forall_inv_tail; eassumption. }
  induction e as [x l IH|f l IH|x l IH] using expr_rect_nested; intros p HE HK; pose proof (known_below _ HK) as HK'; cbn [args] in HK'; cbn [UserCodecModel.expr_to_proto] in HE.
  - destruct (traverse _ l) as [ps| |] eqn:E; cbn [bind] in HE; try discriminate. injection HE as <-. cbn [UserCodecModel.expr_from_proto].
    now rewrite (HA l ps IH HK' E).
  - cbn [UserCodecModel.bare try_encode_udf any_udf] in HE. unfold any_udf in HE. cbn [bind] in HE.
    destruct (traverse _ l) as [ps| |] eqn:E; cbn [bind] in HE; try discriminate. injection HE as <-. cbn [UserCodecModel.expr_from_proto].
    assert (Hf : registry (function_name f) = Some f) by (apply (HK f l), in_expr_here). rewrite Hf. cbn [bind]. now rewrite (HA l ps IH HK' E).
  - cbn in HE. discriminate.
Qed.
Hypothesis partitionings : faithful_partitionings builtin partitioning_pack partitioning_unpack.
Lemma bare_partitioning_back p b : partitioning_to_bytes bare p = Ok b -> (forall e f a, In e (keys p) -> in_expr (Call f a) e -> knows registry f) ->
  partitioning_from_bytes bare registry b = Ok p.
Proof.
  unfold UserCodecModel.partitioning_to_bytes, UserCodecModel.partitioning_from_bytes. destruct (traverse _ (keys p)) as [ps| |] eqn:E; cbn [bind]; try discriminate.
  intros H HK. injection H as <-. destruct (partitionings (scheme p) ps (partition_count p)) as [HU _]. rewrite HU. cbn [bind].
  assert (HL : traverse (expr_from_proto bare registry) ps = Ok (keys p)).
  { apply traverse_inv in E. apply traverse_ok. revert HK. induction E as [|a q l ps H E IH]; intros HK; constructor.
    - apply bare_back; [exact H|]. intros f a'. apply HK. now left.
    - apply IH; [|intros e f a' He; apply HK; now right].
      destruct (partitionings (scheme p) ps (partition_count p)) as [HU' _]. exact HU'. }
  rewrite HL. cbn [bind]. now destruct p.
Qed.

Lemma partitioning_back p b : encode_partitioning native builtin custom user_expr function function_name url schema url_to_string url_parse schema_to_bytes schema_from_bytes utf8 partitioning_pack partitioning_unpack cs p = Ok b ->
  small b -> (forall e f a, In e (keys p) -> in_expr (Call f a) e -> knows registry f) ->
  yields (decode_partitioning native builtin custom user_expr function function_name url schema url_to_string url_parse schema_to_bytes schema_from_bytes utf8 partitioning_pack partitioning_unpack ws registry b) p.
Proof.
  unfold encode_partitioning, decode_partitioning, UserCodecModel.partitioning_to_bytes, UserCodecModel.partitioning_from_bytes.
  destruct (traverse _ (keys p)) as [ps| |] eqn:E; cbn [bind]; try discriminate. intros H HN HK. injection H as <-.
  destruct (partitionings (scheme p) ps (partition_count p)) as [HU HB]. rewrite HU. cbn [bind].
  eapply yields_bind; [eapply exprs_back; [exact E| |exact HK]|left; now destruct p].
  eapply Forall_impl; [|exact HB]. cbv beta. unfold small in *. intros x Hx. lia.
Qed.

(** ** Nodes *)
Hypothesis urls : faithful_urls url utf8 url_to_string url_parse.
Hypothesis schemas : faithful_schemas schema schema_to_bytes schema_from_bytes.

Lemma same_encoding n inputs : List.length inputs = List.length (node_children _ _ _ _ n) ->
  try_encode url tree partitioning schema url_to_string (partitioning_to_bytes bare) schema_to_bytes (node_with_inputs n inputs) =
  try_encode url tree partitioning schema url_to_string (partitioning_to_bytes bare) schema_to_bytes n.
Proof.
  destruct n as [k s p [q m i tk|q m w]|c cs' w ts|i c|i]; cbn [node_children List.length]; intros H; cbn [UserCodecSpec.node_with_inputs]; try reflexivity;
    destruct inputs as [|i' [|]]; try discriminate; reflexivity.
Qed.
Lemma inputs_of_with n inputs : List.length inputs = List.length (node_children _ _ _ _ n) -> node_children _ _ _ _ (node_with_inputs n inputs) = inputs.
Proof.
  destruct n as [k s p [q m i tk|q m w]|c cs' w ts|i c|i]; cbn [node_children List.length]; intros H; cbn [UserCodecSpec.node_with_inputs node_children]; try reflexivity;
    destruct inputs as [|i' [|]]; try discriminate; reflexivity.
Qed.
Lemma fits_with n inputs : fits_node _ _ _ _ n -> List.length inputs = List.length (node_children _ _ _ _ n) -> fits_node _ _ _ _ (node_with_inputs n inputs).
Proof.
  destruct n as [k s p [q m i tk|q m w]|c cs' w ts|i c|i]; cbn [node_children List.length]; intros HF H; cbn [UserCodecSpec.node_with_inputs]; try exact HF;
    try (destruct inputs as [|i' [|]]; try discriminate; exact HF).
  cbn [fits_node] in HF |- *. destruct HF as (H1 & H2 & H3 & H4). split; [exact H1|]. split; [|split; assumption].
  intros ->. destruct cs'; [now apply H2|discriminate].
Qed.
Lemma own_back n data inputs : distributed_encode (Own n) [] = (data, Ok tt) -> small data -> fits_node _ _ _ _ n ->
  (forall e f a, In e (exprs_of (Own n)) -> in_expr (Call f a) e -> knows registry f) ->
  List.length inputs = List.length (node_children _ _ _ _ n) ->
  distributed_decode registry data inputs = Ok (Own (arrives _ _ _ _ (node_with_inputs n inputs))).
Proof.
  intros HE HN HF HK HL. unfold UserCodecModel.distributed_encode in HE.
  destruct (try_encode _ _ _ _ _ _ _ n) as [bs| |] eqn:E; try discriminate. cbn [app] in HE. injection HE as <-.
  unfold UserCodecModel.distributed_decode. rewrite <- (inputs_of_with n inputs HL) at 1.
  erewrite (node_back utf8 url tree partitioning schema url_to_string url_parse (partitioning_to_bytes bare) _ schema_to_bytes schema_from_bytes urls schemas);
    [reflexivity| |now apply fits_with|rewrite same_encoding; assumption|exact HN].
  intros k s p i b En Ep. rewrite (bare_partitioning_back p b Ep); [reflexivity|].
  intros e f a He. apply HK. cbn [UserCodecSpec.exprs_of].
  destruct n as [k' s' p' [q m i' tk|q m w]|c cs' w ts|i' c|i']; cbn [UserCodecSpec.node_with_inputs] in En;
    try (destruct inputs as [|i0 [|]]; try discriminate); try discriminate; injection En as <- <- <- <-; exact He.
Qed.
Lemma arrived_own n : arrived (Own n) = Own (arrives _ _ _ _ (node_with_inputs n (map arrived (node_children _ _ _ _ n)))).
Proof. destruct n as [k s p [q m i tk|q m w]|c cs' w ts|i c|i]; reflexivity. Qed.
Lemma refused_own n : (exists e, snd (distributed_encode (Own n) []) = Err e) -> forall inputs, arrives _ _ _ _ (node_with_inputs n inputs) = node_with_inputs n inputs.
Proof.
  intros (e & HE) inputs. destruct n as [k s p [q m i tk|q m w]|c cs' w ts|i c|i]; cbn [UserCodecSpec.node_with_inputs]; destruct inputs; try reflexivity; cbn in HE; discriminate.
Qed.
Lemma honest_clean_nodes t r : Forall (clean (fun c => try_encode_node c t)) (distributed_codec r :: cs).
Proof.
  constructor.
  - intros buf buf' m E. cbn in E. unfold UserCodecModel.distributed_encode in E. destruct t; try (now injection E as <- _).
    destruct (try_encode _ _ _ _ _ _ _ n); try discriminate. now injection E as <- _.
  - eapply Forall_impl; [|exact honest_cs]. intros c Hc buf buf' m. now apply (refuses_nodes _ _ _ _ _ _ _ _ Hc).
Qed.

Lemma in_below t : forall c, In c (children t) -> forall x, in_plan x c -> in_plan x t.
Proof. intros c Hc x Hx. eapply in_plan_below; eassumption. Qed.

Notation fits_plan := (fits_plan native builtin custom user_expr function url schema).
Notation knows_functions := (knows_functions native builtin custom user_expr function url schema function_name).
Lemma plans_back_all t l ps : l = children t ->
  Forall (fun a => forall p, plan_to_proto coordinator a = Ok p -> Forall small (plan_blobs _ _ p) -> fits_plan a -> knows_functions registry a ->
            yields (plan_from_proto worker registry p) (arrived a)) l ->
  fits_plan t -> knows_functions registry t -> traverse (plan_to_proto coordinator) l = Ok ps -> Forall small (flat_map (plan_blobs _ _) ps) ->
  yields (traverse (plan_from_proto worker registry) ps) (map arrived l).
Proof.
  intros -> HI HF HK HE HS. apply traverse_inv in HE. apply traverse_yields.
  eapply Forall2_strengthen; [|exact HE]. intros a p Ha Hp E. cbv beta. rewrite Forall_forall in HI. apply HI; [exact Ha|exact E| | |].
  - rewrite Forall_forall in HS |- *. intros b Hb. apply HS. apply in_flat_map. exists p. split; assumption.
  - intros n Hn. apply HF. eapply in_below; eassumption.
  - intros f l (n & e & Hn & He & Hf). apply (HK f l). exists n, e. split; [eapply in_below; eassumption|]. now split.
Qed.

(** The children of one of the crate's nodes, as converted. *)
Lemma own_children (n : node) : match n with
     | Boundary _ _ _ _ _ _ _ (LocalStage _ _ _ _ i _) | Broadcast _ _ _ _ i _ | Sampler _ _ _ _ i => let* p := plan_to_proto coordinator i in Ok [p]
     | Boundary _ _ _ _ _ _ _ (RemoteStage _ _ _ _ _) => Ok []
     | Union _ _ _ _ _ cs _ _ => traverse (plan_to_proto coordinator) cs
     end = traverse (plan_to_proto coordinator) (node_children _ _ _ _ n).
Proof. destruct n as [k s p [q m i tk|q m w]|c cs' w ts|i c|i]; cbn [node_children traverse]; try reflexivity; now destruct (plan_to_proto _ _). Qed.

Lemma map_length_children t : List.length (map arrived (children t)) = List.length (children t).
Proof. apply map_length. Qed.

Lemma plan_back t : forall p, plan_to_proto coordinator t = Ok p -> Forall small (plan_blobs _ _ p) -> fits_plan t -> knows_functions registry t ->
  yields (plan_from_proto worker registry p) (arrived t).
Proof.
  induction t as [x es l IH|x l IH|n IH] using tree_rect_nested; intros p HE HS HF HK.
  - cbn [UserCodecModel.plan_to_proto] in HE. destruct (traverse _ es) as [qs| |] eqn:EE; cbn [bind] in HE; try discriminate.
    destruct (traverse _ l) as [ps| |] eqn:E; cbn [bind] in HE; try discriminate. injection HE as <-. cbn [plan_blobs] in HS. apply Forall_app in HS as [HS1 HS2].
    cbn [UserCodecModel.plan_from_proto UserCodecSpec.arrived].
    eapply yields_bind; [eapply exprs_back; [exact EE|exact HS1|]|].
    { intros e f a He Hf. apply (HK f a). exists (Native x es l), e. split; [apply in_plan_here|]. now split. }
    eapply yields_bind; [|now left]. eapply (plans_back_all (Native x es l)); try eassumption. reflexivity.
  - cbn [UserCodecModel.plan_to_proto] in HE.
    destruct (try_encode_node coordinator (Custom x l) []) as [buf r] eqn:EB. destruct r as [[]| |]; cbn [bind] in HE; try discriminate.
    destruct (traverse _ l) as [ps| |] eqn:E; cbn [bind] in HE; try discriminate. injection HE as <-. cbn [plan_blobs] in HS.
    cbn [UserCodecModel.plan_from_proto UserCodecSpec.arrived].
    eapply yields_bind; [eapply (plans_back_all (Custom x l)); try eassumption; [reflexivity|exact (Forall_inv_tail HS)]|].
    cbn [UserCodecModel.new_combined_with_user UserCodecModel.composed try_encode_node try_decode_node] in EB |- *.
    eapply (composed_back (fun c => try_encode_node c (Custom x l)) (fun c data => try_decode_node c data (map arrived l))); [exact few|exact agreeing| |exact EB|exact (Forall_inv HS)| |].
    + apply honest_clean_nodes.
    + intros data He. cbn in He. discriminate.
    + intros c data Hc Hr He. rewrite Forall_forall in honest_cs. apply (decodes_nodes _ _ _ _ _ _ _ _ (honest_cs c Hc)) in He as (b & -> & HB).
      cbn [app]. rewrite HB by (cbn [children]; now rewrite map_length). reflexivity.
  - cbn [UserCodecModel.plan_to_proto] in HE.
    destruct (try_encode_node coordinator (Own n) []) as [buf r] eqn:EB. destruct r as [[]| |]; cbn [bind] in HE; try discriminate.
    rewrite own_children in HE.
    destruct (traverse _ (node_children _ _ _ _ n)) as [ps| |] eqn:E; cbn [bind] in HE; try discriminate. injection HE as <-. cbn [plan_blobs] in HS.
    cbn [UserCodecModel.plan_from_proto]. rewrite arrived_own.
    eapply yields_bind; [eapply (plans_back_all (Own n)); try eassumption; [reflexivity|exact (Forall_inv_tail HS)]|].
    cbn [UserCodecModel.new_combined_with_user UserCodecModel.composed try_encode_node try_decode_node] in EB |- *.
    eapply (composed_back (fun c => try_encode_node c (Own n)) (fun c data => try_decode_node c data (map arrived (node_children _ _ _ _ n)))); [exact few|exact agreeing| |exact EB|exact (Forall_inv HS)| |].
    + apply honest_clean_nodes.
    + intros data He Hsm. cbn [UserCodecModel.distributed_codec try_encode_node try_decode_node] in He |- *. apply own_back; [exact He|exact Hsm| | |now rewrite map_length].
      * apply HF, in_plan_here.
      * intros e f a Hx Hf. apply (HK f a). exists (Own n), e. split; [apply in_plan_here|]. now split.
    + intros c data Hc Hr He. rewrite (refused_own n Hr). rewrite Forall_forall in honest_cs.
      apply (decodes_nodes _ _ _ _ _ _ _ _ (honest_cs c Hc)) in He as (b & -> & HB). cbn [app].
      rewrite HB by (cbn [children]; now rewrite map_length). reflexivity.
Qed.
End Back.

(** ** Further codecs change nothing *)
Section More.
Variables (cs more : list codec).
Notation before := (new_combined_with_user (fun _ => None) cs).
Notation after := (new_combined_with_user (fun _ => None) (cs ++ more)).
Lemma compose_encode_more enc l buf b : compose_encode enc l buf = (b, Ok tt) -> compose_encode enc (l ++ more) buf = (b, Ok tt).
Proof.
  unfold UserCodecModel.compose_encode. destruct (first_accepting enc 0 _ [] l) as [[q d]| |] eqn:E; intros H; try discriminate.
  now rewrite (first_accepting_more enc more l 0 _ [] (q, d) E).
Qed.
Lemma same_traverse {A B} (f g : A -> Res B) l r : Forall (fun a => forall b, f a = Ok b -> g a = Ok b) l -> traverse f l = Ok r -> traverse g l = Ok r.
Proof.
  intros HI HE. apply traverse_inv in HE. apply traverse_ok. revert HI. induction HE as [|a b l r H HE IH]; intros HI; constructor.
  - apply (Forall_inv HI). exact H.
  - apply IH. exact (Forall_inv_tail HI).
Qed.
Lemma expr_more e : forall p, expr_to_proto before e = Ok p -> expr_to_proto after e = Ok p.
Proof.
  induction e as [x l IH|f l IH|x l IH] using expr_rect_nested; intros p HE; cbn [UserCodecModel.expr_to_proto] in HE |- *.
  - destruct (traverse _ l) as [ps| |] eqn:E in HE; cbn [bind] in HE; try discriminate. now rewrite (same_traverse _ _ _ _ IH E).
  - rewrite udf_unused in HE |- *. cbn [bind] in HE |- *.
    destruct (traverse _ l) as [ps| |] eqn:E in HE; cbn [bind] in HE; try discriminate. now rewrite (same_traverse _ _ _ _ IH E).
  - destruct (try_encode_expr before (UserExpr x l) []) as [buf r] eqn:EB. destruct r as [[]| |]; cbn [bind] in HE; try discriminate.
    assert (EB' : try_encode_expr after (UserExpr x l) [] = (buf, Ok tt)) by (exact (compose_encode_more _ (_ :: cs) [] buf EB)). rewrite EB'. cbn [bind].
    destruct (traverse _ l) as [ps| |] eqn:E in HE; cbn [bind] in HE; try discriminate. now rewrite (same_traverse _ _ _ _ IH E).
Qed.
Lemma own_children_with c (n : node) : match n with
     | Boundary _ _ _ _ _ _ _ (LocalStage _ _ _ _ i _) | Broadcast _ _ _ _ i _ | Sampler _ _ _ _ i => let* p := plan_to_proto c i in Ok [p]
     | Boundary _ _ _ _ _ _ _ (RemoteStage _ _ _ _ _) => Ok []
     | Union _ _ _ _ _ cs _ _ => traverse (plan_to_proto c) cs
     end = traverse (plan_to_proto c) (node_children _ _ _ _ n).
Proof. destruct n as [k s p [q m i tk|q m w]|x cs' w ts|i x|i]; cbn [node_children traverse]; try reflexivity; now destruct (plan_to_proto _ _). Qed.
Lemma plan_more t : forall p, plan_to_proto before t = Ok p -> plan_to_proto after t = Ok p.
Proof.
  induction t as [x es l IH|x l IH|n IH] using tree_rect_nested; intros p HE; cbn [UserCodecModel.plan_to_proto] in HE |- *.
  - destruct (traverse _ es) as [qs| |] eqn:EE in HE; cbn [bind] in HE; try discriminate.
    rewrite (same_traverse _ _ es qs (proj2 (Forall_forall _ _) (fun e _ => expr_more e)) EE). cbn [bind].
    destruct (traverse _ l) as [ps| |] eqn:E in HE; cbn [bind] in HE; try discriminate. now rewrite (same_traverse _ _ _ _ IH E).
  - destruct (try_encode_node before (Custom x l) []) as [buf r] eqn:EB. destruct r as [[]| |]; cbn [bind] in HE; try discriminate.
    assert (EB' : try_encode_node after (Custom x l) [] = (buf, Ok tt)) by (exact (compose_encode_more _ (_ :: cs) [] buf EB)). rewrite EB'. cbn [bind].
    destruct (traverse _ l) as [ps| |] eqn:E in HE; cbn [bind] in HE; try discriminate. now rewrite (same_traverse _ _ _ _ IH E).
  - destruct (try_encode_node before (Own n) []) as [buf r] eqn:EB. destruct r as [[]| |]; cbn [bind] in HE; try discriminate.
    assert (EB' : try_encode_node after (Own n) [] = (buf, Ok tt)) by (exact (compose_encode_more _ (_ :: cs) [] buf EB)). rewrite EB'. cbn [bind].
    rewrite own_children_with in HE |- *.
    destruct (traverse _ (node_children _ _ _ _ n)) as [ps| |] eqn:E in HE; cbn [bind] in HE; try discriminate. now rewrite (same_traverse _ _ _ _ IH E).
Qed.
End More.

(** ** Plans that can be sent *)
Section Sent.
Variable cs : list codec.
Notation coordinator := (new_combined_with_user (fun _ => None) cs).
Hypothesis calm_cs : Forall (calm native builtin custom user_expr function url schema) cs.
Lemma compose_some enc buf : Forall (fun c => forall b e, snd (enc c b) <> Panic e) (distributed_codec (fun _ => None) :: cs) ->
  Exists (fun c => forall b, snd (enc c b) = Ok tt) (distributed_codec (fun _ => None) :: cs) ->
  exists b, compose_encode enc (distributed_codec (fun _ => None) :: cs) buf = (b, Ok tt).
Proof.
  intros HP HE. unfold UserCodecModel.compose_encode.
  destruct (first_accepting_some enc _ 0 "Empty list of composed codecs" [] HP HE) as ((q & d) & E). rewrite E. eexists. reflexivity.
Qed.
Lemma expr_sent e : (forall x l, in_expr (UserExpr x l) e -> Exists (fun c => takes_expr native builtin custom user_expr function url schema c (UserExpr x l)) cs) ->
  exists p, expr_to_proto coordinator e = Ok p.
Proof.
  induction e as [x l IH|f l IH|x l IH] using expr_rect_nested; intros HU; cbn [UserCodecModel.expr_to_proto];
    (assert (HL : exists r, traverse (expr_to_proto coordinator) l = Ok r);
     [apply traverse_all; rewrite Forall_forall in IH |- *; intros a Ha; apply IH; [exact Ha|]; intros y l' Hy; apply HU; eapply in_expr_below; [|exact Hy]; exact Ha|];
     destruct HL as (r & HL)).
  - rewrite HL. eexists. reflexivity.
  - rewrite udf_unused, HL. eexists. reflexivity.
  - destruct (compose_some (fun c => try_encode_expr c (UserExpr x l)) []) as (b & EB).
    + constructor; [intros b e; cbn; discriminate|]. eapply Forall_impl; [|exact calm_cs]. intros c [_ Hc]. apply Hc.
    + apply Exists_cons_tl. apply HU. apply in_expr_here.
    + change (try_encode_expr coordinator (UserExpr x l) []) with (compose_encode (fun c => try_encode_expr c (UserExpr x l)) (distributed_codec (fun _ => None) :: cs) []).
      rewrite EB. cbn [bind]. rewrite HL. eexists. reflexivity.
Qed.
Lemma bare_sent e : (forall x l, ~ in_expr (UserExpr x l) e) -> exists p, expr_to_proto bare e = Ok p.
Proof.
  induction e as [x l IH|f l IH|x l IH] using expr_rect_nested; intros HU; cbn [UserCodecModel.expr_to_proto];
    try (exfalso; apply (HU x l); apply in_expr_here);
    (assert (HL : exists r, traverse (expr_to_proto bare) l = Ok r);
     [apply traverse_all; rewrite Forall_forall in IH |- *; intros a Ha; apply IH; [exact Ha|]; intros y l' Hy; apply (HU y l'); eapply in_expr_below; [|exact Hy]; exact Ha|];
     destruct HL as (r & HL)).
  - rewrite HL. eexists. reflexivity.
  - cbn [UserCodecModel.bare try_encode_udf]. unfold any_udf. cbn [bind]. rewrite HL. eexists. reflexivity.
Qed.
Lemma own_taken (n : node) :
  (forall e x l, In e (exprs_of (Own n)) -> ~ in_expr (UserExpr x l) e) ->
  (forall k s p i, n = Boundary _ _ _ _ k s p i -> exists b, schema_to_bytes s = Ok b) ->
  forall buf, snd (distributed_encode (Own n) buf) = Ok tt.
Proof.
  intros HE HSch buf. unfold UserCodecModel.distributed_encode.
  destruct n as [k s p i|c cs' w ts|i c|i]; unfold try_encode; cbn [bind]; try reflexivity.
  destruct (HSch k s p i eq_refl) as (b & ->). cbn [bind]. unfold UserCodecModel.partitioning_to_bytes.
  destruct (traverse_all (expr_to_proto bare) (keys p)) as (r & ->); [|reflexivity].
  apply Forall_forall. intros e He. apply bare_sent. intros x l. apply (HE e x l). exact He.
Qed.
Lemma plan_sent t :
  (forall x l, in_plan (Custom x l) t -> Exists (fun c => takes_node native builtin custom user_expr function url schema c (Custom x l)) cs) ->
  (forall x es l e y a, in_plan (Native x es l) t -> In e es -> in_expr (UserExpr y a) e ->
     Exists (fun c => takes_expr native builtin custom user_expr function url schema c (UserExpr y a)) cs) ->
  (forall n e x l, in_plan (Own n) t -> In e (exprs_of (Own n)) -> ~ in_expr (UserExpr x l) e) ->
  (forall k s p i, in_plan (Own (Boundary _ _ _ _ k s p i)) t -> exists b, schema_to_bytes s = Ok b) ->
  exists p, plan_to_proto coordinator t = Ok p.
Proof.
  induction t as [x es l IH|x l IH|n IH] using tree_rect_nested; intros H1 H2 H3 H4; cbn [UserCodecModel.plan_to_proto].
  - destruct (traverse_all (expr_to_proto coordinator) es) as (qs & ->).
    { apply Forall_forall. intros e He. apply expr_sent. intros y a Hy. eapply H2; [apply in_plan_here|exact He|exact Hy]. }
    cbn [bind]. destruct (traverse_all (plan_to_proto coordinator) l) as (ps & ->); [|eexists; reflexivity].
    rewrite Forall_forall in IH |- *. intros c Hc. apply IH; [exact Hc| | | |]; intros; eauto using in_plan_below.
  - destruct (compose_some (fun c => try_encode_node c (Custom x l)) []) as (b & EB).
    + constructor; [intros b e; cbn; discriminate|]. eapply Forall_impl; [|exact calm_cs]. intros c [Hc _]. apply Hc.
    + apply Exists_cons_tl. apply H1. apply in_plan_here.
    + change (try_encode_node coordinator (Custom x l) []) with (compose_encode (fun c => try_encode_node c (Custom x l)) (distributed_codec (fun _ => None) :: cs) []).
      rewrite EB. cbn [bind]. destruct (traverse_all (plan_to_proto coordinator) l) as (ps & ->); [|eexists; reflexivity].
      rewrite Forall_forall in IH |- *. intros c Hc. apply IH; [exact Hc| | | |]; intros; eauto using in_plan_below.
  - assert (HT : forall buf, snd (distributed_encode (Own n) buf) = Ok tt).
    { apply own_taken; [intros e x l; apply H3; apply in_plan_here|]. intros k s p i ->. eapply H4. apply in_plan_here. }
    assert (EB : exists b, try_encode_node coordinator (Own n) [] = (b, Ok tt)).
    { cbn [UserCodecModel.new_combined_with_user UserCodecModel.composed try_encode_node]. unfold UserCodecModel.compose_encode.
      cbn [UserCodecModel.first_accepting UserCodecModel.distributed_codec try_encode_node].
      specialize (HT []). destruct (distributed_encode (Own n) []) as [d r]. cbn [snd] in HT. rewrite HT. eexists. reflexivity. }
    destruct EB as (b & EB). rewrite EB. cbn [bind]. rewrite own_children_with.
    destruct (traverse_all (plan_to_proto coordinator) (node_children _ _ _ _ n)) as (ps & ->); [|eexists; reflexivity].
    rewrite Forall_forall in IH |- *. intros c Hc. apply IH; [exact Hc| | | |]; intros; eauto using in_plan_below.
Qed.
End Sent.
End Proofs.
