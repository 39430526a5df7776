(** Vocabulary of the theorems about pushing limits below the network. *)
From Verif Require Import Base NetModel NetSpec EventsModel JoinModel JoinSpec PlannerModel ExecModel.
From Coq Require Import Sorting.Sorted.

Section Spec.
Context {row : Type}.
Notation tree := (tree row).
Notation table := (nat -> nat -> list row).

(** OFFSET [skip] LIMIT [fetch] of the rows [all], which come in some order. *)
Definition window (skip : nat) (fetch : option nat) (all out : list row) : Prop :=
  exists l, Permutation l all /\
    out = match fetch with Some n => firstn n (skipn skip l) | None => skipn skip l end.

(** The same with ORDER BY [le]: the rows come in an order that agrees with [le]. *)
Definition sorted_window (le : row -> row -> Prop) (skip : nat) (fetch : option nat) (all out : list row) : Prop :=
  exists l, Permutation l all /\ StronglySorted le l /\
    out = match fetch with Some n => firstn n (skipn skip l) | None => skipn skip l end.

(** [need] lets enough rows through for OFFSET [skip] LIMIT [fetch]. *)
Definition enough (need : option nat) (skip : nat) (fetch : option nat) : Prop :=
  match need with None => True | Some n => match fetch with Some f => f + skip <= n | None => False end end.

(** Plans in which a limit can be pushed: no sort reads from a network coalesce directly, and no stage
    below a network coalesce ends in a repartitioning or broadcast. *)
Definition is_net_coalesce (t : tree) : bool := match t with Net BCoalesce _ _ _ _ _ => true | _ => false end.
Definition bare (t : tree) : bool := match t with Node (KRepart _) _ | Node (KBcast _) _ => false | _ => true end.
Fixpoint limitable (t : tree) : Prop :=
  match t with
  | Node k cs =>
      match k with KOp (OSort _ _) => Forall (fun c => is_net_coalesce c = false) cs | _ => True end /\
      Forall (fun P => P) (map limitable cs)
  | Ciu _ _ cs => Forall (fun P => P) (map limitable cs)
  | Net b _ _ _ _ i => (b = BCoalesce -> bare i = true) /\ limitable i
  end.

(** Plans for the planner in which no CoalescePartitionsExec or SortPreservingMergeExec directly follows a
    repartitioning other than by hash. *)
Definition other_repart (t : tree) : bool :=
  match t with Node (KRepart (HashP _ _)) _ => false | Node (KRepart _) _ => true | _ => false end.
Fixpoint plain_coalesces (t : tree) : Prop :=
  match t with
  | Node k cs =>
      match k with KCoalesce _ _ => Forall (fun c => other_repart c = false) cs | _ => True end /\
      Forall (fun P => P) (map plain_coalesces cs)
  | Ciu _ _ cs => Forall (fun P => P) (map plain_coalesces cs)
  | Net _ _ _ _ _ _ => True
  end.

(** ** Executions with row order

    Like [runs], but the order of rows is known for limits, projections, sorts, coalesced partitions and
    what a network coalesce hands on. SortPreservingMergeExec by [le] merges sorted streams into a sorted
    one. *)
Definition sorted_merge (le : row -> row -> Prop) (streams : list (list row)) (out : list row) : Prop :=
  merge_of streams out /\ StronglySorted le out.

Fixpoint ordered (remote : bool) (x : tree) (n : nat) (f : table) : Prop :=
  match x with
  | Node (KOp (OLocalLimit k)) [c] => exists g, ordered remote c n g /\
      forall i p, i < n -> p < tparts c -> f i p = firstn k (g i p)
  | Node (KOp (OGlobalLimit skip fetch)) [c] => exists g, ordered remote c n g /\
      forall i p, i < n -> p < tparts c -> f i p = limit_to fetch (skipn skip (g i p))
  | Node (KOp (OProj h)) [c] => exists g, ordered remote c n g /\
      forall i p, i < n -> p < tparts c -> f i p = map h (g i p)
  | Node (KOp (OSort s fetch)) [c] => exists g, ordered remote c n g /\
      forall i p, i < n -> p < tparts c -> f i p = limit_to fetch (s (g i p))
  | Node (KCoalesce spm fetch) [c] => exists g, ordered remote c n g /\ 1 <= tparts c /\ forall i, i < n -> exists l,
      (match spm with Some le => sorted_merge le | None => @merge_of row end) (map (g i) (seq 0 (tparts c))) l /\ f i 0 = limit_to fetch l
  | Net BCoalesce part _ _ tasks plan =>
      if bare plan then exists g, ordered true plan tasks g /\
        observes (boundary_execute BCoalesce part tasks (fun i => SOther (tparts plan) (g i))) n (partition_count part) f
      else runs remote x n f
  | _ => runs remote x n f
  end.
End Spec.
