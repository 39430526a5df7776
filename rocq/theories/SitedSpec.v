(** Vocabulary for plans whose network boundaries were placed by the user, with the constructors that the
    library exports (NetworkShuffleExec, NetworkBroadcastExec, NetworkCoalesceExec). *)
From Verif Require Import Base NetModel NetSpec CiuModel EventsModel JoinModel JoinSpec PlannerModel PlannerSpec
  ExecModel ExecSpec SitedModel.

Section Spec.
Context {row : Type}.
Notation tree := (tree row).
Notation table := (nat -> nat -> list row).

(** The leaf that a leaf was made from. *)
Definition plain_leaf (l : leaf_node row) : leaf row :=
  match l with LScan s => s | LTasks d => dle_original d end.

(** The plan without this crate's nodes: what DataFusion would execute on one node. *)
Fixpoint without_boundaries (t : tree) : tree :=
  match t with
  | Node (KLeaf l) _ => Node (KLeaf (LScan (plain_leaf l))) []
  | Node (KBcast _) [c] => without_boundaries c
  | Node k cs => Node k (map without_boundaries cs)
  | Ciu _ _ cs => Node KUnion (map without_boundaries cs)
  | Net _ _ _ _ _ i => without_boundaries i
  end.

Variable cfg : settings row.

(** Scaling a leaf for the [n] tasks of its stage keeps its partition count, and the tasks together read
    its rows. *)
Definition site_scan (n : nat) (l : leaf_node row) : Prop :=
  leaf_parts (LScan (plain_leaf l)) = leaf_parts l /\
  forall q, scaled cfg (Node (KLeaf l) []) n q ->
    exists l', q = Node (KLeaf l') [] /\ leaf_parts l' = leaf_parts l /\
      forall (remote : bool) f, (remote = false -> n = 1) -> runs remote q n f ->
        Permutation (all_rows q n f) (scan_rows l).

(** A plan that may be the input of a NetworkCoalesceExec: the constructor accepts any plan, but preparing
    the boundary removes a RepartitionExec or BroadcastExec (C06). *)
Definition coalescable (t : tree) : Prop :=
  match t with Node (KRepart _) _ | Node (KBcast _) _ | Net _ _ _ _ _ _ => False | _ => True end.

(** [sited n t E D]: the plan [t], whose boundaries were placed by the user, can be executed by [n] tasks;
    its rows are determined up to [E] and spread over tasks and partitions as told by [D]. Compared with
    [typed], operators that need rows of one key together ask for a shuffle boundary or a single task, and
    operators that need their whole input for a single task. *)
Inductive sited : nat -> tree -> (list row -> list row -> Prop) -> spread row -> Prop :=
| si_leaf n l : site_scan n l -> sited n (Node (KLeaf l) []) (@Permutation row) Anyhow
| si_hash h k c E D : 0 < k -> sited 1 c E D -> sited 1 (Node (KRepart (HashP h k)) [c]) E (Hashed h k)
| si_hash_in_task n h k c E D : 0 < k -> sited n c E D -> sited n (Node (KRepart (HashP h k)) [c]) E Anyhow
| si_round_robin n k c E D : 0 < k -> sited n c E D -> sited n (Node (KRepart (RoundRobin k)) [c]) E Anyhow
| si_coalesce n spm c E D : sited n c E D -> sited n (Node (KCoalesce spm None) [c]) E Anyhow
| si_union n cs E : cs <> [] -> additive E -> (forall c, In c cs -> sited n c E Anyhow) ->
    sited n (Node KUnion cs) E Anyhow
| si_distributive n o c E E' D D' : sited n c E D -> fetchless o = true -> additive E' ->
    distributive (op_fun o) E E' -> carries D D' (op_fun o) -> sited n (Node (KOp o) [c]) E' D'
| si_keyed n o c h k E E' D' : sited n c E (Hashed h k) -> fetchless o = true -> additive E' ->
    keyed h (op_fun o) E E' -> carries (Hashed h k) D' (op_fun o) -> sited n (Node (KOp o) [c]) E' D'
| si_whole o c E E' D : sited 1 c E D -> tparts c = 1 -> fetchless o = true -> additive E' ->
    respects (op_fun o) E E' -> sited 1 (Node (KOp o) [c]) E' Anyhow
| si_partitioned n a ty c hl hr na k l r D' :
    sited n l (@Permutation row) (Hashed hl k) -> sited n r (@Permutation row) (Hashed hr k) ->
    keys_hash c hl hr ->
    match D' with
    | Anyhow => True
    | Hashed h' k' => k' = k /\ forall L R x, In x (join ty c L R) ->
        (exists y, In y L /\ h' x = hl y) \/ (exists y, In y R /\ h' x = hr y)
    end ->
    sited n (Node (KJoin (HashJoin false a ty) c hl hr na) [l; r]) (@Permutation row) D'
| si_collect j c hl hr na l r Dl Dr D' :
    sited 1 l (@Permutation row) Dl -> sited 1 r (@Permutation row) Dr -> tparts l = 1 -> collects j = true ->
    (spreads j = false ->
     forall L L' R R', Permutation L L' -> Permutation R R' -> Permutation (na L R) (na L' R')) ->
    match D', Dr with
    | Anyhow, _ => True
    | Hashed h' n', Hashed h n => spreads j = true /\ n' = n /\
        forall L R x, In x (join_rows j c na L R) -> exists y, In y R /\ h' x = h y
    | Hashed _ _, Anyhow => False
    end ->
    sited 1 (Node (KJoin j c hl hr na) [l; r]) (@Permutation row) D'
| si_collect_broadcast n j c hl hr na spm part q num tasks x r Dx Dr D' :
    sited tasks x (@Permutation row) Dx -> sited n r (@Permutation row) Dr -> 1 <= tasks ->
    partition_count part = tparts x -> spreads j = true -> collects j = true ->
    match D', Dr with
    | Anyhow, _ => True
    | Hashed h' n', Hashed h n => n' = n /\
        forall L R x, In x (join_rows j c na L R) -> exists y, In y R /\ h' x = h y
    | Hashed _ _, Anyhow => False
    end ->
    sited n (Node (KJoin j c hl hr na)
      [Node (KCoalesce spm None) [Net BBroadcast part q num tasks (Node (KBcast 1) [x])]; r]) (@Permutation row) D'
| si_shuffle n h k q num tasks c E D : 0 < k -> 1 <= tasks -> sited tasks c E D ->
    sited n (Net BShuffle (HashP h k) q num tasks (Node (KRepart (HashP h k)) [c])) E (Hashed h k)
| si_gather n part q num tasks c E D : 1 <= tasks -> sited tasks c E D -> coalescable c ->
    partition_count part = tparts c * Nat.max (div_ceil tasks n) 1 ->
    sited n (Net BCoalesce part q num tasks c) E Anyhow
| si_weaken n p E E' D D' : sited n p E D -> additive E' -> (forall a b, E a b -> E' a b) ->
    D' = D \/ D' = Anyhow -> sited n p E' D'.

End Spec.

(** What a client gets that reads all partitions of the planner's result, when the plan's partitions yield
    [f]: DataFusion executes every partition of the root. *)
Definition client_reads {row} (r : top row) (f : nat -> nat -> list row) : Res (list row) :=
  match r with
  | TDistributed d =>
      let* parts := mapM (fun p => coordinator_execute p (f 0)) (seq 0 (tparts d)) in Ok (List.concat parts)
  | TPlan d => Ok (all_rows d 1 f)
  | _ => Err "not a plan that returns rows"
  end.

(** The plan below the coordinator node. *)
Definition body {row} (r : top row) : option (tree row) :=
  match r with TDistributed d | TPlan d => Some d | _ => None end.
