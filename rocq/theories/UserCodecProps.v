(** C81: plans with users' nodes reach the workers. *)
From Verif Require Import Base WireModel CodecModel CodecSpec UserCodecModel UserCodecSpec UserCodecProofs UserCodecEx.
From Coq Require Import NArith Lia.
Local Open Scope N_scope.

Section Claims.
Variables (native builtin custom user_expr function : Type) (function_name : function -> list N).
Variables (url schema : Type) (url_to_string : url -> list N) (url_parse : list N -> option url).
Variables (schema_to_bytes : schema -> Res (list N)) (schema_from_bytes : list N -> Res schema) (utf8 : list N -> bool).
Variables (partitioning_pack : N * list (expr_proto builtin) * N -> list N) (partitioning_unpack : list N -> Res (N * list (expr_proto builtin) * N)).
Variables (packet : Type) (pack : plan_proto native builtin -> packet) (unpack : packet -> Res (plan_proto native builtin)) (size : packet -> N).
Notation tree := (tree native builtin custom user_expr function url schema).
Notation codec := (codec native builtin custom user_expr function url schema).
Notation honest := (honest native builtin custom user_expr function url schema).
Notation encode_execution_plan := (encode_execution_plan native builtin custom user_expr function function_name url schema url_to_string url_parse schema_to_bytes schema_from_bytes utf8 partitioning_pack partitioning_unpack packet pack).
Notation decode_execution_plan := (decode_execution_plan native builtin custom user_expr function function_name url schema url_to_string url_parse schema_to_bytes schema_from_bytes utf8 partitioning_pack partitioning_unpack packet unpack).
Notation encode_partitioning := (encode_partitioning native builtin custom user_expr function function_name url schema url_to_string url_parse schema_to_bytes schema_from_bytes utf8 partitioning_pack partitioning_unpack).
Notation decode_partitioning := (decode_partitioning native builtin custom user_expr function function_name url schema url_to_string url_parse schema_to_bytes schema_from_bytes utf8 partitioning_pack partitioning_unpack).
Notation fits_plan := (fits_plan native builtin custom user_expr function url schema).
Notation knows_functions := (knows_functions native builtin custom user_expr function url schema function_name).
Notation arrived := (arrived native builtin custom user_expr function url schema).
Notation in_plan := (in_plan native builtin custom user_expr function url schema).
Notation in_expr := (in_expr builtin user_expr function).
Notation exprs_of := (exprs_of native builtin custom user_expr function url schema).
Notation register := (set_distributed_user_codec native builtin custom user_expr function url schema).
Hypothesis plans : faithful_plans native builtin pack unpack size.
Hypothesis partitionings : faithful_partitionings builtin partitioning_pack partitioning_unpack.
Hypothesis urls : faithful_urls url utf8 url_to_string url_parse.
Hypothesis schemas : faithful_schemas schema schema_to_bytes schema_from_bytes.

Lemma plan_blobs_small p : size (pack p) < 2 ^ 64 -> Forall small (plan_blobs _ _ p).
Proof using plans. intros H. destruct (plans p) as [_ HB]. eapply Forall_impl; [|exact HB]. unfold small. intros b Hb. cbv beta in Hb. lia. Qed.

(** C81: a plan encoded by the coordinator, whatever nodes of DataFusion, of the crate and of users it is made of, is decoded to the same
    plan by a worker that has registered the same codecs in the same order, and maybe others after them. *)
Theorem C81_plans_arrive (user more : list codec) registry (t : tree) bs :
  few_codecs user -> Forall honest user -> fits_plan t -> knows_functions registry t ->
  encode_execution_plan user t = Ok bs -> size bs < 2 ^ 64 ->
  decode_execution_plan (user ++ more) registry bs = Ok (arrived t).
Proof using plans partitionings urls schemas.
  intros HL HH HF HK HE HN. unfold UserCodecModel.encode_execution_plan in HE.
  destruct (plan_to_proto _ _ _ _ _ _ _ _ _ t) as [p| |] eqn:E; cbn [bind] in HE; try discriminate. injection HE as <-.
  unfold UserCodecModel.decode_execution_plan. rewrite (proj1 (plans p)). cbn [bind].
  assert (HA : agree native builtin custom user_expr function url schema user (user ++ more)).
  { intros i c Hi. left. rewrite nth_error_app1; [exact Hi|]. apply nth_error_Some. rewrite Hi. discriminate. }
  edestruct plan_back as [HB|((i & c & Hi & Hn) & _)]; [exact HL|exact HH|exact HA|exact partitionings|exact urls|exact schemas|exact E|now apply plan_blobs_small|exact HF|exact HK|exact HB|].
  exfalso. rewrite nth_error_app1 in Hn; [rewrite Hi in Hn; discriminate|]. apply nth_error_Some. rewrite Hi. discriminate.
Qed.

(** The same for codecs registered one by one: the worker registers what the coordinator registers, in the same order, and then
    others. *)
Theorem C81_codecs_registered_one_by_one (cs more : list codec) registry (t : tree) bs :
  few_codecs cs -> Forall honest cs -> fits_plan t -> knows_functions registry t ->
  encode_execution_plan (fold_left register cs []) t = Ok bs -> size bs < 2 ^ 64 ->
  decode_execution_plan (fold_left register (cs ++ more) []) registry bs = Ok (arrived t).
Proof using plans partitionings urls schemas.
  assert (R : forall l acc : list codec, fold_left register l acc = (acc ++ l)%list).
  { induction l as [|c l IH]; intros acc; cbn [fold_left]; [now rewrite app_nil_r|].
    rewrite IH. unfold set_distributed_user_codec. now rewrite <- app_assoc. }
  rewrite !R. exact (C81_plans_arrive cs more registry t bs).
Qed.

(** A worker that lacks the last codecs of the coordinator decodes the plan, or fails: it never runs another plan. *)
Theorem C81_missing_codec (user lacking : list codec) registry (t : tree) bs :
  few_codecs (user ++ lacking) -> Forall honest (user ++ lacking) -> fits_plan t -> knows_functions registry t ->
  encode_execution_plan (user ++ lacking) t = Ok bs -> size bs < 2 ^ 64 ->
  decode_execution_plan user registry bs = Ok (arrived t) \/ exists e, decode_execution_plan user registry bs = Err e.
Proof using plans partitionings urls schemas.
  intros HL HH HF HK HE HN. unfold UserCodecModel.encode_execution_plan in HE.
  destruct (plan_to_proto _ _ _ _ _ _ _ _ _ t) as [p| |] eqn:E; cbn [bind] in HE; try discriminate. injection HE as <-.
  unfold UserCodecModel.decode_execution_plan. rewrite (proj1 (plans p)). cbn [bind].
  assert (HA : agree native builtin custom user_expr function url schema (user ++ lacking) user).
  { intros i c Hi. destruct (Nat.lt_ge_cases i (List.length user)) as [H|H].
    - left. now rewrite nth_error_app1 in Hi.
    - right. now apply nth_error_None. }
  edestruct plan_back as [HB|(_ & HB)]; [exact HL|exact HH|exact HA|exact partitionings|exact urls|exact schemas|exact E|now apply plan_blobs_small|exact HF|exact HK|left; exact HB|right; exact HB].
Qed.

(** Registering further codecs does not change what is sent: the crate's own nodes, and those of codecs registered before, are not
    taken over. *)
Theorem C81_adding_codecs (user more : list codec) (t : tree) bs :
  encode_execution_plan user t = Ok bs -> encode_execution_plan (user ++ more) t = Ok bs.
Proof using Type.
  unfold UserCodecModel.encode_execution_plan. destruct (plan_to_proto _ _ _ _ _ _ _ _ _ t) as [p| |] eqn:E; cbn [bind]; intros H; try discriminate.
  erewrite plan_more; [exact H|exact E].
Qed.

(** A plan can be sent if a registered codec takes each of the user's nodes, and each of the user's expressions in DataFusion's nodes,
    and if no boundary is partitioned by a user's expression. *)
Theorem C81_plans_are_sent (user : list codec) (t : tree) :
  Forall (calm native builtin custom user_expr function url schema) user ->
  (forall x l, in_plan (Custom x l) t -> Exists (fun c => takes_node native builtin custom user_expr function url schema c (Custom x l)) user) ->
  (forall x es l e y a, in_plan (Native x es l) t -> In e es -> in_expr (UserExpr y a) e ->
     Exists (fun c => takes_expr native builtin custom user_expr function url schema c (UserExpr y a)) user) ->
  (forall n e x l, in_plan (Own n) t -> In e (exprs_of (Own n)) -> ~ in_expr (UserExpr x l) e) ->
  (forall k s p i, in_plan (Own (Boundary _ _ _ _ k s p i)) t -> exists b, schema_to_bytes s = Ok b) ->
  exists bs, encode_execution_plan user t = Ok bs.
Proof using Type.
  intros HC H1 H2 H3 H4. unfold UserCodecModel.encode_execution_plan.
  edestruct plan_sent as (p & HP); [exact HC|exact H1|exact H2|exact H3|exact H4|]. rewrite HP. eexists. reflexivity.
Qed.

(** The partitioning requested from a producer arrives, users' expressions included. *)
Theorem C81_partitionings_arrive (user more : list codec) registry p bs :
  few_codecs user -> Forall honest user ->
  (forall e f a, In e (keys p) -> in_expr (Call f a) e -> knows function function_name registry f) ->
  encode_partitioning user p = Ok bs -> small bs ->
  decode_partitioning (user ++ more) registry bs = Ok p.
Proof using partitionings.
  intros HL HH HK HE HN.
  assert (HA : agree native builtin custom user_expr function url schema user (user ++ more)).
  { intros i c Hi. left. rewrite nth_error_app1; [exact Hi|]. apply nth_error_Some. rewrite Hi. discriminate. }
  edestruct partitioning_back as [HB|((i & c & Hi & Hn) & _)]; [exact HL|exact HH|exact HA|exact partitionings|exact HE|exact HN|exact HK|exact HB|].
  exfalso. rewrite nth_error_app1 in Hn; [rewrite Hi in Hn; discriminate|]. apply nth_error_Some. rewrite Hi. discriminate.
Qed.
End Claims.
Print Assumptions C81_plans_arrive.
Print Assumptions C81_codecs_registered_one_by_one.
Print Assumptions C81_missing_codec.
Print Assumptions C81_adding_codecs.
Print Assumptions C81_plans_are_sent.
Print Assumptions C81_partitionings_arrive.

(** *** Instances and witnesses *)
Module UserCodecInst.
(** Nodes of the user: two kinds, each with a number. Functions: a name and a constant inside. *)
Notation function := (N * N)%type.
Notation custom := (bool * N)%type.
Notation tree := (tree N N custom N function (list N) (list N)).
Notation expr := (expr N N function).
Notation codec := (codec N N custom N function (list N) (list N)).
Notation honest := (honest N N custom N function (list N) (list N)).
Definition name (f : function) : list N := [fst f].
Definition any_text (_ : list N) : bool := true.
Definition send := encode_execution_plan N N custom N function name (list N) (list N) (fun u => u) Some Ok Ok any_text pack_keys unpack_keys packet (fun p => p).
Definition receive := decode_execution_plan N N custom N function name (list N) (list N) (fun u => u) Some Ok Ok any_text pack_keys unpack_keys packet Ok.
Definition send_keys := encode_partitioning N N custom N function name (list N) (list N) (fun u => u) Some Ok Ok any_text pack_keys unpack_keys.
Definition receive_keys := decode_partitioning N N custom N function name (list N) (list N) (fun u => u) Some Ok Ok any_text pack_keys unpack_keys.

(** A codec for the nodes of one kind, for the user's expressions if [exprs], and for functions. *)
Definition codec_for (kind exprs : bool) : codec := {|
  try_encode_node t buf := match t with Custom (k, x) _ => if Bool.eqb k kind then (buf ++ [x], Ok tt) else (buf, Err "not mine") | _ => (buf, Err "not mine") end;
  try_decode_node data inputs := match data with [x] => Ok (Custom (kind, x) inputs) | _ => Err "malformed" end;
  try_encode_expr e buf := match e with UserExpr x _ => if exprs then (buf ++ [x], Ok tt) else (buf, Err "not mine") | _ => (buf, Err "not mine") end;
  try_decode_expr data inputs := match data with [x] => Ok (UserExpr x inputs) | _ => Err "malformed" end;
  try_encode_udf f buf := (buf ++ [fst f; snd f], Ok tt);
  try_decode_udf _ data := match data with [a; b] => Ok (a, b) | _ => Err "malformed" end;
|}.
Lemma codec_for_honest kind exprs : honest (codec_for kind exprs).
Proof.
  constructor; cbn [codec_for try_encode_node try_decode_node try_encode_expr try_decode_expr].
  - intros t buf buf' H. destruct t as [|[k x] l|]; try discriminate. destruct (Bool.eqb k kind) eqn:E; try discriminate. injection H as <-.
    exists [x]. split; [reflexivity|]. intros inputs _. apply Bool.eqb_prop in E. now subst k.
  - intros t buf buf' e H. destruct t as [|[k x] l|]; try (now injection H as <- _). destruct (Bool.eqb k kind); try discriminate. now injection H as <- _.
  - intros [|x l|x l] buf buf' H; try discriminate. destruct exprs; try discriminate. injection H as <-. exists [x]. split; reflexivity.
  - intros [|x l|x l] buf buf' e H; try (now injection H as <- _). destruct exprs; try discriminate. now injection H as <- _.
Qed.
Lemma codec_for_calm kind exprs : calm N N custom N function (list N) (list N) (codec_for kind exprs).
Proof.
  split; cbn.
  - intros [|[k x] l|] buf e; cbn; try discriminate. now destruct (Bool.eqb k kind).
  - intros [|x l|x l] buf e; cbn; try discriminate. now destruct exprs.
Qed.

Definition an_id : list N := [1; 2; 3; 4; 5; 6; 7; 8; 9; 10; 11; 12; 13; 14; 15; 16].
Definition registry (n : list N) : option function := match n with [40] => Some (40, 7) | _ => None end.
(** A filter calling a function over a union of a user's node (over a shuffle) and another user's node. *)
Definition a_shuffle : tree :=
  Own (Boundary _ _ _ _ Shuffle [1; 2] {| scheme := 1; keys := [Call (40, 7) [Builtin 3 []]]; partition_count := 4 |} (RemoteStage _ _ an_id 2 [[104]; [105]])).
Definition a_plan : tree :=
  Native 1 [Call (40, 7) [UserExpr 9 [Builtin 0 []]]]
    [Own (Union _ _ _ _ 6 [Custom (false, 5) [a_shuffle]; Custom (true, 6) []] [(2 ^ 63, None); (1, Some 2)] [[(0, (0, 1))]; [(1, (0, 1))]])].
Definition the_codecs : list codec := [codec_for true false; codec_for false true].

Lemma plan_nodes x t : in_plan N N custom N function (list N) (list N) x t -> x = t \/ exists c, In c (children t) /\ in_plan N N custom N function (list N) (list N) x c.
Proof. intros H. destruct H as [|t c Hc H]; [now left|right; now exists c]. Qed.
Ltac nodes H := apply plan_nodes in H; destruct H as [H|(? & Hc & H)]; [|cbn in Hc; repeat (destruct Hc as [<-|Hc]; [nodes H|]); try contradiction Hc].
Lemma a_plan_nodes x : in_plan N N custom N function (list N) (list N) x a_plan ->
  x = a_plan \/ x = Own (Union _ _ _ _ 6 [Custom (false, 5) [a_shuffle]; Custom (true, 6) []] [(2 ^ 63, None); (1, Some 2)] [[(0, (0, 1))]; [(1, (0, 1))]]) \/
  x = Custom (false, 5) [a_shuffle] \/ x = Custom (true, 6) [] \/ x = a_shuffle.
Proof. intros H. nodes H; tauto. Qed.
Lemma expr_nodes x e : in_expr N N function x e -> x = e \/ exists c, In c (args e) /\ in_expr N N function x c.
Proof. intros H. destruct H as [|t c Hc H]; [now left|right; now exists c]. Qed.
Ltac exprs H := apply expr_nodes in H; destruct H as [H|(? & Hc & H)]; [|cbn in Hc; repeat (destruct Hc as [<-|Hc]; [exprs H|]); try contradiction Hc].

Example C81_instance :
  few_codecs the_codecs /\ Forall honest the_codecs /\ fits_plan N N custom N function (list N) (list N) a_plan /\
  knows_functions N N custom N function (list N) (list N) name registry a_plan /\
  (exists bs, send the_codecs a_plan = Ok bs /\ packet_size bs < 2 ^ 64 /\
     receive (the_codecs ++ [codec_for true true]) registry bs =
       Ok (Native 1 [Call (40, 7) [UserExpr 9 [Builtin 0 []]]]
            [Own (Union _ _ _ _ 6 [Custom (false, 5) [a_shuffle]; Custom (true, 6) []] [(0, None); (1, Some 2)] [[(0, (0, 1))]; [(1, (0, 1))]])]) /\
     receive [codec_for true false] registry bs = Err "Can't find required codec in codec list").
Proof.
  split; [reflexivity|]. split; [repeat constructor; apply codec_for_honest|]. split; [|split].
  - intros n Hn. apply a_plan_nodes in Hn as [Hn|[Hn|[Hn|[Hn|Hn]]]]; try discriminate Hn; injection Hn as ->.
    + split; [reflexivity|]. split; [discriminate|]. split; repeat constructor; cbn; intros; try discriminate. match goal with H : Some _ = Some _ |- _ => injection H as <- end. reflexivity.
    + split; reflexivity.
  - intros f l (n & e & Hn & He & Hf). apply a_plan_nodes in Hn as [-> | [-> | [-> | [-> | ->]]]]; cbn in He; try contradiction He;
      (destruct He as [<-|[]]; exprs Hf; try discriminate Hf; injection Hf as -> _; reflexivity).
  - eexists. split; [reflexivity|]. split; [reflexivity|]. split; reflexivity.
Qed.
Example C81_sent_instance :
  Forall (calm N N custom N function (list N) (list N)) the_codecs /\
  (forall x l, in_plan N N custom N function (list N) (list N) (Custom x l) a_plan -> Exists (fun c => takes_node N N custom N function (list N) (list N) c (Custom x l)) the_codecs) /\
  (forall x es l e y a, in_plan N N custom N function (list N) (list N) (Native x es l) a_plan -> In e es -> in_expr N N function (UserExpr y a) e ->
     Exists (fun c => takes_expr N N custom N function (list N) (list N) c (UserExpr y a)) the_codecs) /\
  (forall n e x l, in_plan N N custom N function (list N) (list N) (Own n) a_plan -> In e (exprs_of N N custom N function (list N) (list N) (Own n)) -> ~ in_expr N N function (UserExpr x l) e).
Proof.
  split; [repeat constructor; apply codec_for_calm|]. split; [|split].
  - intros x l H. apply a_plan_nodes in H as [H|[H|[H|[H|H]]]]; try discriminate H; injection H as -> _.
    + apply Exists_cons_tl, Exists_cons_hd. intros buf. reflexivity.
    + apply Exists_cons_hd. intros buf. reflexivity.
  - intros x es l e y a H He Hx. apply a_plan_nodes in H as [H|[H|[H|[H|H]]]]; try discriminate H. injection H as -> -> ->.
    apply Exists_cons_tl, Exists_cons_hd. intros buf. reflexivity.
  - intros n e x l H He Hx. apply a_plan_nodes in H as [H|[H|[H|[H|H]]]]; try discriminate H; injection H as ->; cbn in He; try contradiction He.
    destruct He as [<-|[]]. exprs Hx; discriminate Hx.
Qed.
Example C81_partitionings_instance :
  let p : partitioning N N function := {| scheme := 1; keys := [UserExpr 9 []; Call (40, 7) []]; partition_count := 3 |} in
  exists bs, send_keys the_codecs p = Ok bs /\ small bs /\ receive_keys the_codecs registry bs = Ok p.
Proof. cbv zeta. eexists. split; [reflexivity|]. split; reflexivity. Qed.

(** The order of the codecs matters: with the same honest codecs registered in another order, the worker runs another plan, without an
    error. *)
Theorem C81_order_refuted :
  exists (a b : codec) (t t' : tree) bs, honest a /\ honest b /\ send [a; b] t = Ok bs /\ receive [b; a] registry bs = Ok t' /\
    t' <> arrived N N custom N function (list N) (list N) t.
Proof.
  exists (codec_for true false), (codec_for false false), (Custom (true, 6) []), (Custom (false, 6) []). eexists.
  split; [apply codec_for_honest|]. split; [apply codec_for_honest|]. split; [reflexivity|]. split; [reflexivity|discriminate].
Qed.

(** A plan with a boundary partitioned by a user's expression cannot be sent, although a codec for the expression is registered and the
    expression can be sent in any of DataFusion's nodes and in a request for partitions. *)
Theorem C81_user_keys_refuted :
  exists (c : codec) (e : expr) (t t' : tree) p, honest c /\ takes_expr N N custom N function (list N) (list N) c e /\
    (exists bs, send [c] (Native 1 [e] []) = Ok bs) /\ (exists bs, send_keys [c] p = Ok bs) /\
    t = Own (Boundary _ _ _ _ Shuffle [1] p (RemoteStage _ _ an_id 1 [])) /\ keys p = [e] /\
    t' = Native 1 [] [t] /\ exists m, send [c] t' = Err m.
Proof.
  exists (codec_for true true), (UserExpr 9 []). do 2 eexists. exists {| scheme := 1; keys := [UserExpr 9 []]; partition_count := 3 |}.
  split; [apply codec_for_honest|]. split; [intros buf; reflexivity|]. split; [eexists; reflexivity|]. split; [eexists; reflexivity|].
  split; [reflexivity|]. split; [reflexivity|]. split; [reflexivity|]. eexists. reflexivity.
Qed.

(** Users' codecs are not asked about functions: although both sides have a codec that writes a function and reads it back, a worker
    that does not know the function by name fails, and one that knows another function by that name calls the other. *)
Theorem C81_functions_refuted :
  exists (c : codec) (f g : function) (t : tree) bs,
    honest c /\ (forall buf, exists b, try_encode_udf c f buf = (buf ++ b, Ok tt) /\ try_decode_udf c (name f) b = Ok f) /\
    t = Native 1 [Call f []] [] /\ send [c] t = Ok bs /\
    (exists m, receive [c] (fun _ => None) bs = Err m) /\
    name g = name f /\ g <> f /\ receive [c] (fun _ => Some g) bs = Ok (Native 1 [Call g []] []).
Proof.
  exists (codec_for true true), (40, 7), (40, 8). do 2 eexists. split; [apply codec_for_honest|]. split; [intros buf; exists [40; 7]; split; reflexivity|].
  split; [reflexivity|]. split; [reflexivity|]. split; [eexists; reflexivity|]. split; [reflexivity|]. split; [discriminate|reflexivity].
Qed.

(** A codec that writes before it refuses spoils what a later one writes. *)
Definition untidy : codec := {|
  try_encode_node _ buf := (buf ++ [0], Err "not mine"); try_decode_node _ _ := Err "not mine";
  try_encode_expr _ buf := (buf, Err "not mine"); try_decode_expr _ _ := Err "not mine";
  try_encode_udf _ buf := (buf, Ok tt); try_decode_udf _ _ := Err "not mine" |}.
Theorem C81_untidy_refuted :
  exists (a b : codec) (t : tree) bs m, honest b /\ takes_node N N custom N function (list N) (list N) b t /\
    (forall x buf, exists e, snd (try_encode_node a x buf) = Err e) /\ send [a; b] t = Ok bs /\ receive [a; b] registry bs = Err m.
Proof.
  exists untidy, (codec_for true false), (Custom (true, 6) []). do 2 eexists. split; [apply codec_for_honest|]. split; [intros buf; reflexivity|].
  split; [intros x buf; eexists; reflexivity|]. split; reflexivity.
Qed.
End UserCodecInst.
Print Assumptions UserCodecInst.C81_order_refuted.
Print Assumptions UserCodecInst.C81_user_keys_refuted.
Print Assumptions UserCodecInst.C81_functions_refuted.
Print Assumptions UserCodecInst.C81_untidy_refuted.
