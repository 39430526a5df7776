(** What the overview of the console should show. *)
From Coq Require Import QArith.
From Verif Require Import Base ConsoleModel ConsoleSpec OverviewModel.
Close Scope Q_scope.

(** [l] is the queries that the tasks shown for the workers [ws] belong to, each once. *)
Definition queries_shown (ws : list conn) (l : list nat) : Prop :=
  NoDup l /\ forall q, In q l <-> exists w t k, In w ws /\ In t (tasks w) /\ l_key t = Some k /\ query_of k = q.

(** How many workers have a status. *)
Fixpoint with_status (p : status -> bool) (ws : list conn) : nat :=
  match ws with [] => 0 | w :: ws => (if p (st w) then 1 else 0) + with_status p ws end.

(** Row [i] before row [j]. *)
Definition above (rows : list nat) (a b : nat) : Prop := exists i j, i < j /\ nth_error rows i = Some a /\ nth_error rows j = Some b.

(** What the table shows for the worker at position [i] in a column. *)
Definition shows (cpu : nat -> option nat) (rss : nat -> nat) (ws : list conn) (c : column) (i v : nat) : Prop :=
  exists w, nth_error ws i = Some w /\
    match c with
    | CWorker => v = url w
    | CStatus => match st w with Disconnected => v = 0 | Active => v = 1 | Idle => v = 2 | Connecting => v = 3 end
    | CTasks => v = List.length (tasks w)
    | CQueries => exists l, queries_shown [w] l /\ v = List.length l
    | CCpu => cpu i = Some v
    | CMemory => v = rss i
    end.

(** The worker listed the task at [t0], and in every answer since. *)
Definition listed_since (u : nat) (l : list event) (k : key) (t0 : nat) : Prop :=
  exists l0 a0 l1, l = l0 ++ EPoll t0 (Some a0) :: l1 /\ client (after u l0) = true /\ lists k a0 /\ keeps k l1.

(** The rows of all tasks that workers listed last. *)
Definition rows_shown (ws : list conn) : nat := list_sum (map rows_total ws).
(** Readings one after another: their times and the workers' records. *)
Definition reading := (nat * list conn)%type.
Definition ticks (rs : list reading) : list happening := map (fun r => Tick (fst r) (snd r)) rs.
Definition successive (rs : list reading) (x y : reading) : Prop := exists l l', rs = l ++ x :: y :: l'.
(** [y] is read after [x], and the rows have grown at the rate [r]. *)
Definition grows (r : Q) (x y : reading) : Prop :=
  fst x < fst y /\ rows_shown (snd x) <= rows_shown (snd y) /\
  (inject_Z (Z.of_nat (rows_shown (snd y) - rows_shown (snd x))) == r * inject_Z (Z.of_nat (fst y - fst x)))%Q.

(** What [k] readings leave of a difference. *)
Fixpoint share (k : nat) : Q := match k with 0 => 1%Q | S k => ((3 # 10) * share k)%Q end.
