(** Sending plans with the codecs registered by users: src/codec/user_codec.rs, src/codec/physical_plan.rs and the composition in
    src/codec/distributed_codec.rs. The crate's own nodes are those of CodecModel. What DataFusion's side does (its
    [ComposedPhysicalExtensionCodec], and where its conversion of plans and expressions asks the codec) is written out here as
    it is understood; the encoding of DataFusion's own nodes and expressions is a parameter and is assumed to be faithful. *)
From Verif Require Import Base WireModel CodecModel.
From Coq Require Import NArith.
Local Open Scope N_scope.

Notation bytes := (list N).

(** [collect::<Result<Vec<_>>>]. *)
Section Traverse.
Context {A B : Type} (f : A -> Res B).
Fixpoint traverse (l : list A) : Res (list B) :=
  match l with [] => Ok [] | a :: l => let* b := f a in let* bs := traverse l in Ok (b :: bs) end.
End Traverse.

Section UserCodec.
(** [native], [builtin]: DataFusion's own nodes and expressions without their inputs; [custom], [user_expr]: the user's; [function]:
    user-defined scalar functions, with their names. *)
Variables (native builtin custom user_expr function : Type) (function_name : function -> bytes).
Variables (url schema : Type) (url_to_string : url -> bytes) (url_parse : bytes -> option url).
Variables (schema_to_bytes : schema -> Res bytes) (schema_from_bytes : bytes -> Res schema) (utf8 : bytes -> bool).

(** ** Expressions and plans *)
Inductive expr :=
| Builtin (x : builtin) (args : list expr)
| Call (f : function) (args : list expr)
| UserExpr (x : user_expr) (args : list expr).

(** DataFusion's [Partitioning]: its kind and count ([N] each) and its expressions. *)
Record partitioning := { scheme : N; keys : list expr; partition_count : N }.

(** Plans: DataFusion's nodes with the expressions they hold, the user's nodes, the nodes of this project. Simplification: the
    expressions held by a user's node are part of it. *)
Inductive tree :=
| Native (x : native) (exprs : list expr) (inputs : list tree)
| Custom (x : custom) (inputs : list tree)
| Own (n : node url tree partitioning schema).
Notation node := (node url tree partitioning schema).

(** [children()]. *)
Definition children (t : tree) : list tree :=
  match t with Native _ _ cs | Custom _ cs => cs | Own n => node_children _ _ _ _ n end.
Definition args (e : expr) : list expr := match e with Builtin _ l | Call _ l | UserExpr _ l => l end.

(** ** Codecs *)

(** DataFusion's [PhysicalExtensionCodec]. Encoding writes to a buffer, also when it fails. *)
Record codec := {
  try_encode_node : tree -> bytes -> bytes * Res unit;
  try_decode_node : bytes -> list tree -> Res tree;
  try_encode_expr : expr -> bytes -> bytes * Res unit;
  try_decode_expr : bytes -> list expr -> Res expr;
  try_encode_udf : function -> bytes -> bytes * Res unit;
  try_decode_udf : bytes -> bytes -> Res function;
}.

(** The defaults of the trait for expressions and functions. *)
Definition no_expr (_ : expr) (buf : bytes) : bytes * Res unit := (buf, Err "PhysicalExtensionCodec is not provided").
Definition no_expr_back (_ : bytes) (_ : list expr) : Res expr := Err "PhysicalExtensionCodec is not provided".
Definition any_udf (_ : function) (buf : bytes) : bytes * Res unit := (buf, Ok tt).
Definition no_udf_back (_ _ : bytes) : Res function := Err "PhysicalExtensionCodec is not provided for scalar function".

(** *** DataFusion's composition *)

(** [DataEncoderTuple]: the position of the codec (uint32) and what it wrote. *)
Inductive tuple_msg := DataEncoderTuple.
Definition tuple_fields (_ : tuple_msg) : list (field tuple_msg) := [Implicit 1 TVarint; Implicit 2 TBytes].

(** [encode_protobuf]: the first codec that does not fail; the buffer is the same for all attempts. *)
Fixpoint first_accepting (enc : codec -> bytes -> bytes * Res unit) (position : N) (last : string) (data : bytes) (codecs : list codec) : Res (N * bytes) :=
  match codecs with
  | [] => Err last
  | c :: codecs =>
      match enc c data with
      | (data, Ok _) => Ok (position, data)
      | (data, Err e) => first_accepting enc (position + 1) e data codecs
      | (_, Panic e) => Panic e
      end
  end.
Definition compose_encode (enc : codec -> bytes -> bytes * Res unit) (codecs : list codec) (buf : bytes) : bytes * Res unit :=
  match first_accepting enc 0 "Empty list of composed codecs" [] codecs with
  | Ok (position, data) => (buf ++ encode tuple_msg tuple_fields DataEncoderTuple [[(1, Varint (position mod 2 ^ 32))]; [(2, Blob data)]], Ok tt)
  | Err e => (buf, Err e)
  | Panic e => (buf, Panic e)
  end.
(** [decode_protobuf]. *)
Definition compose_decode {A} (dec : codec -> bytes -> Res A) (codecs : list codec) (bs : bytes) : Res A :=
  let* m := decode tuple_msg tuple_fields utf8 DataEncoderTuple bs in
  match m with
  | [(_, Varint position) :: _; (_, Blob data) :: _] =>
      match nth_error codecs (N.to_nat position) with
      | Some c => dec c data
      | None => Err "Can't find required codec in codec list"
      end
  | _ => Panic "unreachable"
  end.
Definition composed (codecs : list codec) : codec := {|
  try_encode_node t := compose_encode (fun c => try_encode_node c t) codecs;
  try_decode_node bs inputs := compose_decode (fun c data => try_decode_node c data inputs) codecs bs;
  try_encode_expr e := compose_encode (fun c => try_encode_expr c e) codecs;
  try_decode_expr bs inputs := compose_decode (fun c data => try_decode_expr c data inputs) codecs bs;
  try_encode_udf f := compose_encode (fun c => try_encode_udf c f) codecs;
  try_decode_udf name bs := compose_decode (fun c data => try_decode_udf c name data) codecs bs;
|}.

(** ** DataFusion's conversion of expressions *)

(** [PhysicalExprNode]. *)
Inductive expr_proto :=
| PBuiltin (x : builtin) (args : list expr_proto)
| PCall (name : bytes) (definition : option bytes) (args : list expr_proto)
| PExtExpr (written : bytes) (args : list expr_proto).

(** [serialize_physical_expr]. *)
Fixpoint expr_to_proto (c : codec) (e : expr) : Res expr_proto :=
  match e with
  | Builtin x l => let* l := traverse (expr_to_proto c) l in Ok (PBuiltin x l)
  | Call f l =>
      let '(buf, r) := try_encode_udf c f [] in
      let* _ := r in
      let* l := traverse (expr_to_proto c) l in
      Ok (PCall (function_name f) (match buf with [] => None | _ => Some buf end) l)
  | UserExpr x l =>
      let '(buf, r) := try_encode_expr c e [] in
      let* _ := r in
      let* l := traverse (expr_to_proto c) l in
      Ok (PExtExpr buf l)
  end.
(** [parse_physical_expr]; [registry] is the worker's task context. *)
Fixpoint expr_from_proto (c : codec) (registry : bytes -> option function) (p : expr_proto) : Res expr :=
  match p with
  | PBuiltin x l => let* l := traverse (expr_from_proto c registry) l in Ok (Builtin x l)
  | PCall name definition l =>
      let* f := match definition with
                | Some bs => try_decode_udf c name bs
                | None => match registry name with Some f => Ok f | None => try_decode_udf c name [] end
                end in
      let* l := traverse (expr_from_proto c registry) l in
      Ok (Call f l)
  | PExtExpr bs l =>
      let* l := traverse (expr_from_proto c registry) l in
      try_decode_expr c bs l
  end.

(** [serialize_partitioning] and [parse_protobuf_partitioning]; the bytes of the message are a parameter. *)
Variables (partitioning_pack : N * list expr_proto * N -> bytes) (partitioning_unpack : bytes -> Res (N * list expr_proto * N)).
Definition partitioning_to_bytes (c : codec) (p : partitioning) : Res bytes :=
  let* l := traverse (expr_to_proto c) (keys p) in
  Ok (partitioning_pack (scheme p, l, partition_count p)).
Definition partitioning_from_bytes (c : codec) (registry : bytes -> option function) (bs : bytes) : Res partitioning :=
  let* m := partitioning_unpack bs in
  let '(s, l, n) := m in
  let* l := traverse (expr_from_proto c registry) l in
  Ok {| scheme := s; keys := l; partition_count := n |}.

(** ** The crate's codec *)

(** src/codec/distributed_codec.rs:48-375: only nodes are overridden. Partitionings are encoded and decoded with [self] (lines 104,
    127, 150, 278, 295, 312), that is without the user's codecs. It writes only if it succeeds. *)
Section Distributed.
Variable registry : bytes -> option function.
Definition bare : codec := {|
  try_encode_node _ buf := (buf, Err "Unexpected plan");
  try_decode_node _ _ := Err "Unexpected plan";
  try_encode_expr := no_expr; try_decode_expr := no_expr_back; try_encode_udf := any_udf; try_decode_udf := no_udf_back |}.
Definition distributed_encode (t : tree) (buf : bytes) : bytes * Res unit :=
  match t with
  | Own n =>
      match try_encode url tree partitioning schema url_to_string (partitioning_to_bytes bare) schema_to_bytes n with
      | Ok bs => (buf ++ bs, Ok tt)
      | Err e => (buf, Err e)
      | Panic e => (buf, Panic e)
      end
  | _ => (buf, Err "Unexpected plan")
  end.
Definition distributed_decode (bs : bytes) (inputs : list tree) : Res tree :=
  let* n := try_decode utf8 url tree partitioning schema url_parse
              (fun _ b => let* p := partitioning_from_bytes bare registry b in Ok (Some p)) schema_from_bytes bs inputs in
  Ok (Own n).
Definition distributed_codec : codec := {|
  try_encode_node := distributed_encode; try_decode_node := distributed_decode;
  try_encode_expr := no_expr; try_decode_expr := no_expr_back; try_encode_udf := any_udf; try_decode_udf := no_udf_back |}.

(** src/codec/user_codec.rs:7-33: a codec registered later comes later in the list. *)
Definition set_distributed_user_codec (registered : list codec) (c : codec) : list codec := registered ++ [c].
(** src/codec/distributed_codec.rs:41-46 *)
Definition new_combined_with_user (user : list codec) : codec := composed (distributed_codec :: user).
End Distributed.

(** ** DataFusion's conversion of plans *)

(** [PhysicalPlanNode]. *)
Inductive plan_proto :=
| PNative (x : native) (exprs : list expr_proto) (inputs : list plan_proto)
| PExtension (written : bytes) (inputs : list plan_proto).

(** [try_from_physical_plan]: DataFusion's own nodes are recognized first; any other is given to the codec, then its children are
    converted. *)
Fixpoint plan_to_proto (c : codec) (t : tree) : Res plan_proto :=
  match t with
  | Native x es cs =>
      let* es := traverse (expr_to_proto c) es in
      let* cs := traverse (plan_to_proto c) cs in
      Ok (PNative x es cs)
  | Custom x cs =>
      let '(buf, r) := try_encode_node c t [] in
      let* _ := r in
      let* cs := traverse (plan_to_proto c) cs in
      Ok (PExtension buf cs)
  | Own n =>
      let '(buf, r) := try_encode_node c t [] in
      let* _ := r in
      let* cs := match n with
                 | Boundary _ _ _ _ _ _ _ (LocalStage _ _ _ _ i _) | Broadcast _ _ _ _ i _ | Sampler _ _ _ _ i =>
                     let* p := plan_to_proto c i in Ok [p]
                 | Boundary _ _ _ _ _ _ _ (RemoteStage _ _ _ _ _) => Ok []
                 | Union _ _ _ _ _ cs _ _ => traverse (plan_to_proto c) cs
                 end in
      Ok (PExtension buf cs)
  end.
(** [try_into_physical_plan] *)
Fixpoint plan_from_proto (c : codec) (registry : bytes -> option function) (p : plan_proto) : Res tree :=
  match p with
  | PNative x es cs =>
      let* es := traverse (expr_from_proto c registry) es in
      let* cs := traverse (plan_from_proto c registry) cs in
      Ok (Native x es cs)
  | PExtension bs cs =>
      let* cs := traverse (plan_from_proto c registry) cs in
      try_decode_node c bs cs
  end.

(** ** src/codec/physical_plan.rs *)

(** [packet] stands for the bytes of a [PhysicalPlanNode] message. *)
Variables (packet : Type) (pack : plan_proto -> packet) (unpack : packet -> Res plan_proto).
(** Lines 26-34; what is registered at the coordinator does not matter for encoding. *)
Definition encode_execution_plan (user : list codec) (t : tree) : Res packet :=
  let* p := plan_to_proto (new_combined_with_user (fun _ => None) user) t in
  Ok (pack p).
(** Lines 36-43 *)
Definition decode_execution_plan (user : list codec) (registry : bytes -> option function) (bs : packet) : Res tree :=
  let* p := unpack bs in
  plan_from_proto (new_combined_with_user registry user) registry p.
(** Lines 45-52 *)
Definition encode_partitioning (user : list codec) (p : partitioning) : Res bytes :=
  partitioning_to_bytes (new_combined_with_user (fun _ => None) user) p.
(** Lines 54-66 *)
Definition decode_partitioning (user : list codec) (registry : bytes -> option function) (bs : bytes) : Res partitioning :=
  partitioning_from_bytes (new_combined_with_user registry user) registry bs.
End UserCodec.

Arguments Builtin {builtin user_expr function} x args.
Arguments Call {builtin user_expr function} f args.
Arguments UserExpr {builtin user_expr function} x args.
Arguments scheme {builtin user_expr function} p.
Arguments keys {builtin user_expr function} p.
Arguments partition_count {builtin user_expr function} p.
Arguments args {builtin user_expr function} e.
Arguments Native {native builtin custom user_expr function url schema} x exprs inputs.
Arguments Custom {native builtin custom user_expr function url schema} x inputs.
Arguments Own {native builtin custom user_expr function url schema} n.
Arguments children {native builtin custom user_expr function url schema} t.
Arguments try_encode_node {native builtin custom user_expr function url schema} c t buf : rename.
Arguments try_decode_node {native builtin custom user_expr function url schema} c data inputs : rename.
Arguments try_encode_expr {native builtin custom user_expr function url schema} c e buf : rename.
Arguments try_decode_expr {native builtin custom user_expr function url schema} c data inputs : rename.
Arguments try_encode_udf {native builtin custom user_expr function url schema} c f buf : rename.
Arguments try_decode_udf {native builtin custom user_expr function url schema} c name data : rename.
Arguments PBuiltin {builtin} x args.
Arguments PCall {builtin} name definition args.
Arguments PExtExpr {builtin} written args.
Arguments PNative {native builtin} x exprs inputs.
Arguments PExtension {native builtin} written inputs.
