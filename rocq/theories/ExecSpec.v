(** Vocabulary of the end-to-end theorem: which plans have a meaning that does not depend on how rows are
    spread over partitions and tasks, and what the operators in them must satisfy. *)
From Verif Require Import Base NetModel NetSpec CiuModel EventsModel EventsSpec JoinModel JoinSpec PlannerModel PlannerSpec
  ExecModel.

Section Spec.
Context {row : Type}.
Notation tree := (tree row).
Notation table := (nat -> nat -> list row).

(** ** Meaning of a plan on one node *)

Definition scan_rows (l : leaf_node row) : list row :=
  let s := match l with LScan s => s | LTasks d => dle_original d end in
  flat_map (fun p => match lf_exec s p with Ok rows => rows | _ => [] end) (seq 0 (lf_parts s)).

Definition join_rows (j : join_op) (c : condition row) (na : list row -> list row -> list row)
    (L R : list row) : list row :=
  match j with
  | HashJoin true true _ => na L R
  | HashJoin _ _ ty | NestedLoop ty => join ty c L R
  | Cross => cross c L R
  end.

(** The rows of a plan, every operator seeing its whole input at once. *)
Fixpoint meaning (t : tree) : list row :=
  match t with
  | Node k cs =>
      match k, map meaning cs with
      | KLeaf l, _ => scan_rows l
      | KOp o, [l] => op_fun o l
      | KJoin j c _ _ na, [l; r] => join_rows j c na l r
      | _, ls => List.concat ls
      end
  | Ciu _ _ cs => List.concat (map meaning cs)
  | Net _ _ _ _ _ i => meaning i
  end.

(** ** Operators *)

(** An equivalence of row collections that ignores order and is compatible with putting collections
    together. Intermediate results need only be the same in this sense: partial aggregates of different
    splits of the input are different rows, but have the same totals. *)
Record additive (E : list row -> list row -> Prop) : Prop := {
  add_sym : forall a b, E a b -> E b a;
  add_trans : forall a b c, E a b -> E b c -> E a c;
  add_perm : forall a b, Permutation a b -> E a b;
  add_app : forall a b c d, E a b -> E c d -> E (a ++ c) (b ++ d)
}.

Definition respects (F : list row -> list row) (E E' : list row -> list row -> Prop) : Prop :=
  forall a b, E a b -> E' (F a) (F b).

(** Works on any split of its input: filters, projections, partial aggregates. *)
Definition distributive (F : list row -> list row) (E E' : list row -> list row -> Prop) : Prop :=
  respects F E E' /\ E' (F []) [] /\ forall a b, E' (F (a ++ b)) (F a ++ F b).

(** Works on any split of its input that keeps rows with the same hash together: final aggregates. *)
Definition keyed (h : row -> nat) (F : list row -> list row) (E E' : list row -> list row -> Prop) : Prop :=
  respects F E E' /\ E' (F []) [] /\
  forall a b, (forall x y, In x a -> In y b -> h x <> h y) -> E' (F (a ++ b)) (F a ++ F b).

(** How the rows of a plan are known to be spread over its partitions. *)
Inductive spread := Anyhow | Hashed (h : row -> nat) (n : nat).

(** Every row that comes out has the hash of some row that went in. *)
Definition carries (D D' : spread) (F : list row -> list row) : Prop :=
  match D', D with
  | Anyhow, _ => True
  | Hashed h' n', Hashed h n => n' = n /\ forall l r, In r (F l) -> exists r0, In r0 l /\ h' r = h r0
  | Hashed _ _, Anyhow => False
  end.

(** Joins that read the whole left side in every partition. *)
Definition collects (j : join_op) : bool := match j with HashJoin false _ _ => false | _ => true end.
(** ... and whose result can be computed for parts of the right side separately. *)
Definition spreads (j : join_op) : bool :=
  match j with
  | HashJoin c na ty => negb c || negb na && is_left_broadcast_safe ty
  | NestedLoop ty => is_left_broadcast_safe ty
  | Cross => true
  end.

(** ** Grouped aggregates

    Rows of partial results have a key and a state; the states of a group are added up. *)
Record grouping {K M : Type} (key : row -> K) (val : row -> M) (mk : K -> M -> row) (zero : M)
    (plus : M -> M -> M) : Prop := {
  g_key : forall k m, key (mk k m) = k;
  g_val : forall k m, val (mk k m) = m;
  g_assoc : forall a b c, plus (plus a b) c = plus a (plus b c);
  g_comm : forall a b, plus a b = plus b a;
  g_zero : forall a, plus zero a = a
}.

Section Groups.
Context {K M : Type}.
Variable keq : forall a b : K, {a = b} + {a <> b}.
Variable key : row -> K.
Variable val : row -> M.
Variable mk : K -> M -> row.
Variable zero : M.
Variable plus : M -> M -> M.

Fixpoint total (k : K) (l : list row) : M :=
  match l with
  | [] => zero
  | r :: l => if keq (key r) k then plus (val r) (total k l) else total k l
  end.

(** One row for every key, with the total of its states. *)
Definition group (l : list row) : list row := map (fun k => mk k (total k l)) (nodup keq (map key l)).

Definition same_totals (a b : list row) : Prop :=
  forall k, total k a = total k b /\ (In k (map key a) <-> In k (map key b)).

(** An aggregate that turns rows into states, merges states, and turns merged states into rows. *)
Definition grouped_agg (state out : row -> row) : agg row :=
  mkAgg (fun l => group (map state l)) group (fun l => map out (group l))
    (fun l => map out (group (map state l))).
End Groups.

(** ** Plans

    [typed pr p E D]: [p] is a plan without limits whose operators get inputs they can work with; its rows
    are determined up to [E] and spread as told by [D]. [pr] tells whether partial-reduce aggregates will
    be added. *)

(** Where partial-reduce aggregates are added, partial states are known up to further merging. *)
Definition reduces (pr : bool) (o : op row) (E : list row -> list row -> Prop) : Prop :=
  match o with
  | OAgg APartial _ a => pr = true -> forall l, E (agg_reduce a l) l
  | _ => True
  end.

Definition fetchless (o : op row) : bool :=
  match o with
  | OSort _ (Some _) | OGlobalLimit _ _ | OLocalLimit _ => false
  | _ => true
  end.

Definition is_round_robin (t : tree) : bool :=
  match t with Node (KRepart (RoundRobin _)) _ => true | _ => false end.

(** The build side [l] of a collecting join, directly or broadcast. *)
Definition build_side (l x : tree) : Prop :=
  l = x \/ l = Node (KCoalesce None None) [Node (KBcast 1) [x]].

(** Equal keys have equal hashes. *)
Definition keys_hash (c : condition row) (hl hr : row -> nat) : Prop :=
  forall a b, matches c a b = true -> hl a = hr b.

Inductive typed (pr : bool) : tree -> (list row -> list row -> Prop) -> spread -> Prop :=
| ty_leaf l : typed pr (Node (KLeaf (LScan l)) []) (@Permutation row) Anyhow
| ty_hash h n c E D : 0 < n -> typed pr c E D ->
    typed pr (Node (KRepart (HashP h n)) [c]) E (Hashed h n)
| ty_round_robin n c E D : 0 < n -> typed pr c E D -> typed pr (Node (KRepart (RoundRobin n)) [c]) E Anyhow
| ty_coalesce spm c E D : typed pr c E D -> is_round_robin c = false ->
    typed pr (Node (KCoalesce spm None) [c]) E Anyhow
| ty_union cs E : cs <> [] -> additive E -> (forall c, In c cs -> typed pr c E Anyhow) ->
    typed pr (Node KUnion cs) E Anyhow
| ty_isolated w m cs E : cs <> [] -> additive E -> (forall c, In c cs -> typed pr c E Anyhow) ->
    typed pr (Ciu w m cs) E Anyhow
| ty_distributive o c E E' D D' : typed pr c E D -> fetchless o = true -> additive E' -> reduces pr o E' ->
    distributive (op_fun o) E E' -> carries D D' (op_fun o) ->
    typed pr (Node (KOp o) [c]) E' D'
| ty_keyed o c h n E E' D' : typed pr c E (Hashed h n) -> fetchless o = true -> additive E' -> reduces pr o E' ->
    keyed h (op_fun o) E E' -> carries (Hashed h n) D' (op_fun o) ->
    typed pr (Node (KOp o) [c]) E' D'
| ty_whole o c E E' D : typed pr c E D -> fetchless o = true -> additive E' -> reduces pr o E' ->
    needs_whole_input (KOp o) = true -> respects (op_fun o) E E' ->
    typed pr (Node (KOp o) [c]) E' Anyhow
| ty_partitioned a ty c hl hr na n l r D' :
    typed pr l (@Permutation row) (Hashed hl n) -> typed pr r (@Permutation row) (Hashed hr n) ->
    keys_hash c hl hr ->
    match D' with
    | Anyhow => True
    | Hashed h' n' => n' = n /\ forall L R x, In x (join ty c L R) ->
        (exists y, In y L /\ h' x = hl y) \/ (exists y, In y R /\ h' x = hr y)
    end ->
    typed pr (Node (KJoin (HashJoin false a ty) c hl hr na) [l; r]) (@Permutation row) D'
| ty_collect j c hl hr na l x r Dl Dr D' :
    typed pr x (@Permutation row) Dl -> typed pr r (@Permutation row) Dr ->
    build_side l x -> collects j = true ->
    match j with HashJoin _ true _ => True | HashJoin _ _ _ => keys_hash c hl hr | _ => True end ->
    (forall L L' R R', Permutation L L' -> Permutation R R' -> Permutation (na L R) (na L' R')) ->
    match D', Dr with
    | Anyhow, _ => True
    | Hashed h' n', Hashed h n => spreads j = true /\ n' = n /\
        forall L R x, In x (join_rows j c na L R) -> exists y, In y R /\ h' x = h y
    | Hashed _ _, Anyhow => False
    end ->
    typed pr (Node (KJoin j c hl hr na) [l; r]) (@Permutation row) D'
| ty_weaken p E E' D D' : typed pr p E D -> additive E' -> (forall a b, E a b -> E' a b) ->
    D' = D \/ D' = Anyhow -> typed pr p E' D'.

(** ** What DataFusion guarantees *)

(** A plan without nodes of this crate. *)
Fixpoint ordinary (t : tree) : Prop :=
  match t with
  | Node (KBcast _) _ => False
  | Node _ cs => Forall (fun P => P) (map ordinary cs)
  | _ => False
  end.

(** [p] has one partition, however its leaves are scaled. *)
Fixpoint one_part (t : tree) : Prop :=
  match t with
  | Node k cs =>
      match k, map one_part cs with
      | KLeaf l, _ => leaf_parts l = 1
      | KRepart p, _ => partition_count p = 1
      | KCoalesce _ _, _ => True
      | KJoin (HashJoin false _ _) _ _ _ _, [l; _] => l
      | KJoin _ _ _ _ _, [_; r] => r
      | KOp _, [c] => c
      | _, _ => False
      end
  | _ => False
  end.

(** Operators that need their whole input, and the build sides of collecting joins, have one partition. *)
Fixpoint fed (t : tree) : Prop :=
  match t with
  | Node k cs =>
      match k, cs with
      | KOp _, [c] => needs_whole_input k = true -> one_part c
      | KJoin j _ _ _ _, [l; _] => collects j = true -> one_part l
      | _, _ => True
      end /\ Forall (fun P => P) (map fed cs)
  | Ciu _ _ cs => Forall (fun P => P) (map fed cs)
  | Net _ _ _ _ _ _ => True
  end.

(** No operator needs its whole input in one partition, except the build sides of joins. Scans have
    partitions, unions have several inputs and round-robin repartitions several outputs. *)
Fixpoint spreadable (t : tree) : Prop :=
  match t with
  | Node k cs =>
      match k with
      | KLeaf l => 1 <= leaf_parts l
      | KRepart (RoundRobin n) => 2 <= n
      | KUnion => 2 <= List.length cs
      | KOp _ => needs_whole_input k = false
      | _ => True
      end /\ Forall (fun P => P) (map spreadable cs)
  | _ => False
  end.

(** ** Where the planner may put the operators *)

Variable cfg : settings row.
Variable most : nat.

(** Scaling a scan keeps its rows: whatever number of tasks the planner may choose, the tasks together
    read the rows of the scan, and so does the head stage. *)
Definition faithful_scan (l : leaf_node row) : Prop :=
  forall s q, 1 <= s <= most -> (forall k, In k (announced cfg (Node (KLeaf l) [])) -> s <= k) ->
    scaled cfg (Node (KLeaf l) []) s q ->
    exists l', q = Node (KLeaf l') [] /\ (leaf_parts l = 1 -> leaf_parts l' = 1) /\
      forall (remote : bool) f, let n := if remote then s else 1 in
        runs remote q n f -> Permutation (all_rows q n f) (scan_rows l).

(** A scan that is split by the scale-up handlers, as file scans are: whenever the planner may run it in
    several tasks, a handler makes a variant for each of them. The variants have as many partitions as
    the scan and together its rows. *)
Definition split_scan (l : leaf row) : Prop :=
  forall s, 1 <= s <= most -> (forall k, In k (announced cfg (Node (KLeaf (LScan l)) [])) -> s <= k) ->
  match scale_up_leaf cfg (Node (KLeaf (LScan l)) []) s with
  | None => s = 1
  | Some (Ok (Node (KLeaf (LTasks d)) [])) =>
      dle_original d = l /\ lf_parts l = dle_parts d /\ List.length (dle_variants d) = s /\
      (forall v, In v (dle_variants d) -> lf_parts v = dle_parts d) /\
      exists rows, mapM leaf_rows (dle_variants d) = Ok rows /\ Permutation (List.concat rows) (scan_rows (LScan l))
  | Some (Ok _) => False
  | Some _ => True
  end.

Fixpoint every_scan (P : leaf_node row -> Prop) (t : tree) : Prop :=
  match t with
  | Node (KLeaf l) [] => P l
  | Node _ cs | Ciu _ _ cs => Forall (fun P => P) (map (every_scan P) cs)
  | Net _ _ _ _ _ i => every_scan P i
  end.

(** [placed head p]: operators that need their whole input get it in one partition and are executed by
    one task, because they are in the head stage ([head]), because a stage has at most one task, or
    because a limit of one task is announced in their stage. A collecting join may instead have its
    build side broadcast. *)
Fixpoint placed (head : bool) (p : tree) : Prop :=
  let alone := head = true \/ most = 1 \/ In 1 (announced cfg p) in
  match p with
  | Node k cs =>
      match k, cs with
      | KOp o, [c] => needs_whole_input k = true -> one_part c /\ alone
      | KJoin j _ _ _ _, [l; _] => collects j = true ->
          (exists x, l = Node (KCoalesce None None) [Node (KBcast 1) [x]]) /\ (spreads j = true \/ alone) \/
          one_part l /\ alone
      | _, _ => True
      end /\
      Forall (fun P => P)
        (map (fun c => placed (match cut (is_coalesce p) c with None => head | Some _ => false end) c) cs)
  | Ciu _ _ cs =>
      (head = false \/ most = 1) /\
      Forall (fun P => P)
        (map (fun c => placed (match cut false c with None => head | Some _ => false end) c) cs)
  | Net _ _ _ _ _ _ => True
  end.

(** The part of [placed] that does not follow from how the planner treats joins: operators that need
    their whole input are executed by one task, and isolated unions are not in the head stage. *)
Fixpoint ops_placed (head : bool) (p : tree) : Prop :=
  match p with
  | Node k cs =>
      (match k with
       | KOp _ => needs_whole_input k = true -> head = true \/ most = 1 \/ In 1 (announced cfg p)
       | _ => True
       end) /\
      Forall (fun P => P)
        (map (fun c => ops_placed (match cut (is_coalesce p) c with None => head | Some _ => false end) c) cs)
  | Ciu _ _ cs =>
      (head = false \/ most = 1) /\
      Forall (fun P => P)
        (map (fun c => ops_placed (match cut false c with None => head | Some _ => false end) c) cs)
  | Net _ _ _ _ _ _ => True
  end.

(** The head stage is the whole plan down to its first boundaries. *)
Definition in_head (p : tree) : bool := match cut false p with None => true | Some _ => false end.

End Spec.
Arguments spread : clear implicits.
