(** Which plans can be sent, what codecs are expected to do, and what arrives. *)
From Verif Require Import Base CodecModel CodecSpec UserCodecModel.
From Coq Require Import NArith.
Local Open Scope N_scope.

(** Byte strings whose length is a 64-bit number, and lists of codecs whose positions are 32-bit numbers. *)
Definition small (b : list N) : Prop := N.of_nat (List.length b) < 2 ^ 64.
Definition few_codecs {A} (l : list A) : Prop := N.of_nat (S (List.length l)) < 2 ^ 32.

Section Spec.
Variables (native builtin custom user_expr function url schema : Type) (function_name : function -> list N).
Notation tree := (tree native builtin custom user_expr function url schema).
Notation expr := (expr builtin user_expr function).
Notation partitioning := (partitioning builtin user_expr function).
Notation node := (node url tree partitioning schema).
Notation codec := (codec native builtin custom user_expr function url schema).

(** [in_plan x t]: [x] is a node of the plan [t]. *)
Inductive in_plan (x : tree) : tree -> Prop :=
| in_plan_here : in_plan x x
| in_plan_below t c : In c (children t) -> in_plan x c -> in_plan x t.
Inductive in_expr (x : expr) : expr -> Prop :=
| in_expr_here : in_expr x x
| in_expr_below e a : In a (args e) -> in_expr x a -> in_expr x e.
(** The expressions held by a node. *)
Definition exprs_of (t : tree) : list expr :=
  match t with
  | Native _ es _ => es
  | Custom _ _ => []
  | Own (Boundary _ _ _ _ _ _ p _) => keys p
  | Own _ => []
  end.
Definition expr_of_plan (x : expr) (t : tree) : Prop := exists n e, in_plan n t /\ In e (exprs_of n) /\ in_expr x e.

(** A node with other inputs. *)
Definition node_with_inputs (n : node) (inputs : list tree) : node :=
  match n, inputs with
  | Boundary _ _ _ _ k s p (LocalStage _ _ q m _ tasks), i :: _ => Boundary _ _ _ _ k s p (LocalStage _ _ q m i tasks)
  | Union _ _ _ _ count _ weights map, _ => Union _ _ _ _ count inputs weights map
  | Broadcast _ _ _ _ _ count, i :: _ => Broadcast _ _ _ _ i count
  | Sampler _ _ _ _ _, i :: _ => Sampler _ _ _ _ i
  | n, _ => n
  end.
Definition with_inputs (t : tree) (inputs : list tree) : tree :=
  match t with
  | Native x es _ => Native x es inputs
  | Custom x _ => Custom x inputs
  | Own n => Own (node_with_inputs n inputs)
  end.
Definition with_args (e : expr) (l : list expr) : expr :=
  match e with Builtin x _ => Builtin x l | Call f _ => Call f l | UserExpr x _ => UserExpr x l end.

(** What a user's codec is expected to do: decode what it encoded, and write nothing when it refuses. *)
Record honest (c : codec) : Prop := {
  decodes_nodes : forall t buf buf', try_encode_node c t buf = (buf', Ok tt) ->
    exists b, buf' = buf ++ b /\ forall inputs, List.length inputs = List.length (children t) -> try_decode_node c b inputs = Ok (with_inputs t inputs);
  refuses_nodes : forall t buf buf' e, try_encode_node c t buf = (buf', Err e) -> buf' = buf;
  decodes_exprs : forall x buf buf', try_encode_expr c x buf = (buf', Ok tt) ->
    exists b, buf' = buf ++ b /\ forall inputs, List.length inputs = List.length (args x) -> try_decode_expr c b inputs = Ok (with_args x inputs);
  refuses_exprs : forall x buf buf' e, try_encode_expr c x buf = (buf', Err e) -> buf' = buf;
}.
(** A codec that never gives up with a panic. *)
Definition calm (c : codec) : Prop :=
  (forall t buf e, snd (try_encode_node c t buf) <> Panic e) /\ (forall x buf e, snd (try_encode_expr c x buf) <> Panic e).
Definition takes_node (c : codec) (t : tree) : Prop := forall buf, snd (try_encode_node c t buf) = Ok tt.
Definition takes_expr (c : codec) (x : expr) : Prop := forall buf, snd (try_encode_expr c x buf) = Ok tt.

(** The plan at the worker: that of the coordinator, with the weights of its unions as in C43. *)
Fixpoint arrived (t : tree) : tree :=
  match t with
  | Native x es cs => Native x es (map arrived cs)
  | Custom x cs => Custom x (map arrived cs)
  | Own n =>
      Own match n with
          | Boundary _ _ _ _ k s p (LocalStage _ _ q m i tasks) => Boundary _ _ _ _ k s p (LocalStage _ _ q m (arrived i) tasks)
          | Boundary _ _ _ _ k s p (RemoteStage _ _ q m workers) => Boundary _ _ _ _ k s p (RemoteStage _ _ q m workers)
          | Union _ _ _ _ count cs weights tasks =>
              Union _ _ _ _ count (map arrived cs) (map (fun w => (same_weight (fst w), snd w)) weights) tasks
          | Broadcast _ _ _ _ i count => Broadcast _ _ _ _ (arrived i) count
          | Sampler _ _ _ _ i => Sampler _ _ _ _ (arrived i)
          end
  end.

(** Numbers and identifiers of the crate's nodes are those of their Rust types. *)
Definition fits_plan (t : tree) : Prop := forall n, in_plan (Own n) t -> fits_node _ _ _ _ n.
(** The worker knows the functions by their names. *)
Definition knows (registry : list N -> option function) (f : function) : Prop := registry (function_name f) = Some f.
Definition knows_functions (registry : list N -> option function) (t : tree) : Prop :=
  forall f l, expr_of_plan (Call f l) t -> knows registry f.

(** What the codecs wrote into a message. *)
Fixpoint expr_blobs (p : expr_proto builtin) : list (list N) :=
  match p with
  | PBuiltin _ l => flat_map expr_blobs l
  | PCall _ d l => match d with Some b => [b] | None => [] end ++ flat_map expr_blobs l
  | PExtExpr b l => b :: flat_map expr_blobs l
  end.
Fixpoint plan_blobs (p : plan_proto native builtin) : list (list N) :=
  match p with
  | PNative _ es cs => flat_map expr_blobs es ++ flat_map plan_blobs cs
  | PExtension b cs => b :: flat_map plan_blobs cs
  end.

(** What is assumed of the encoding of DataFusion's part of a message: it is faithful and holds what the codecs wrote. *)
Definition faithful_plans {packet} (pack : plan_proto native builtin -> packet) (unpack : packet -> Res (plan_proto native builtin)) (size : packet -> N) : Prop :=
  forall p, unpack (pack p) = Ok p /\ Forall (fun b => N.of_nat (List.length b) <= size (pack p)) (plan_blobs p).
Definition faithful_partitionings (pack : N * list (expr_proto builtin) * N -> list N) (unpack : list N -> Res (N * list (expr_proto builtin) * N)) : Prop :=
  forall s l n, unpack (pack (s, l, n)) = Ok (s, l, n) /\ Forall (fun b => (List.length b <= List.length (pack (s, l, n)))%nat) (flat_map expr_blobs l).
(** The same of URLs and schemas. *)
Definition faithful_urls (utf8 : list N -> bool) (to_string : url -> list N) (parse : list N -> option url) : Prop :=
  forall u, parse (to_string u) = Some u /\ utf8 (to_string u) = true.
Definition faithful_schemas (to_bytes : schema -> Res (list N)) (from_bytes : list N -> Res schema) : Prop :=
  forall s b, to_bytes s = Ok b -> from_bytes b = Ok s.
End Spec.
