(** Model of the planner's decisions about joins.
    Sources: src/distributed_planner/insert_broadcast.rs:160-180, normalize_collect_joins.rs:105-213,
    inject_network_boundaries.rs:275-305. *)
From Verif Require Import Base.

(** DataFusion [JoinType]. *)
Inductive join_type :=
| Inner | Left | Right | Full | LeftSemi | RightSemi | LeftAnti | RightAnti | LeftMark | RightMark.

Definition join_type_eqb (a b : join_type) : bool :=
  match a, b with
  | Inner, Inner | Left, Left | Right, Right | Full, Full | LeftSemi, LeftSemi
  | RightSemi, RightSemi | LeftAnti, LeftAnti | RightAnti, RightAnti | LeftMark, LeftMark
  | RightMark, RightMark => true
  | _, _ => false
  end.

(** insert_broadcast.rs:174-183 [is_left_broadcast_safe]. *)
Definition is_left_broadcast_safe (t : join_type) : bool :=
  match t with
  | Inner | Right | RightSemi | RightAnti | RightMark => true
  | _ => false
  end.

(** The operators the join passes look at. [collect_left] is [mode == PartitionMode::CollectLeft]. *)
Inductive join_op :=
| HashJoin (collect_left null_aware : bool) (t : join_type)
| NestedLoop (t : join_type)
| Cross.

(** insert_broadcast.rs:161-172 [can_broadcast_left_input]. *)
Definition can_broadcast_left_input (j : join_op) : bool :=
  match j with
  | HashJoin collect_left _ t => collect_left && is_left_broadcast_safe t
  | NestedLoop t => is_left_broadcast_safe t
  | Cross => true
  end.

(** normalize_collect_joins.rs:113-121: becomes a partitioned join. [single] is
    [both_sides_use_single_partition]. *)
Definition becomes_partitioned (j : join_op) (single : bool) : bool :=
  match j with
  | HashJoin collect_left null_aware t =>
      collect_left && negb (is_left_broadcast_safe t) && negb null_aware && negb single
  | _ => false
  end.

(** normalize_collect_joins.rs:122-129: has its inputs swapped. *)
Definition gets_swapped (broadcast_joins : bool) (j : join_op) (single : bool) : bool :=
  match j with
  | NestedLoop t =>
      broadcast_joins && negb (is_left_broadcast_safe t) && negb (join_type_eqb t Full) && negb single
  | _ => false
  end.

(** inject_network_boundaries.rs:275-305: the three arms that answer [Maximum(1)]. *)
Definition single_task_join (broadcast_joins : bool) (j : join_op) : bool :=
  match j with
  | HashJoin collect_left null_aware t =>
      collect_left && (negb broadcast_joins || null_aware || negb (is_left_broadcast_safe t))
  | NestedLoop t =>
      negb broadcast_joins || join_type_eqb t Full || negb (is_left_broadcast_safe t)
  | Cross => negb broadcast_joins
  end.

(** DataFusion [JoinType::swap], used by [NestedLoopJoinExec::swap_inputs]
    (normalize_collect_joins.rs:150,152). *)
Definition swap_type (t : join_type) : join_type :=
  match t with
  | Inner => Inner | Full => Full
  | Left => Right | Right => Left
  | LeftSemi => RightSemi | RightSemi => LeftSemi
  | LeftAnti => RightAnti | RightAnti => LeftAnti
  | LeftMark => RightMark | RightMark => LeftMark
  end.
