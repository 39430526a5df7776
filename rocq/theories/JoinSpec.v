(** What a join returns, as a bag of rows (SQL semantics, independent of any execution strategy), and
    the ways of splitting its inputs over tasks. *)
From Verif Require Import Base JoinModel.

Section Join.
Context {row : Type}.

(** A join condition with the ways its output rows are built: [pair] for joined rows and rows padded
    with nulls, [mark] for the rows of mark joins. *)
Record condition := mkCond {
  matches : row -> row -> bool;
  pair : option row -> option row -> row;
  mark : row -> bool -> row
}.

(** All matching pairs. *)
Definition pairs (c : condition) (L R : list row) : list row :=
  flat_map (fun l => flat_map (fun r => if matches c l r then [pair c (Some l) (Some r)] else []) R) L.

(** Does a row find a partner on the other side? *)
Definition l_matched (c : condition) (R : list row) (l : row) : bool := existsb (matches c l) R.
Definition r_matched (c : condition) (L : list row) (r : row) : bool := existsb (fun l => matches c l r) L.

(** Rows of the left table, resp. the right table, that are emitted on their own. *)
Definition left_rows (t : join_type) (c : condition) (L R : list row) : list row :=
  match t with
  | Left | Full => map (fun l => pair c (Some l) None) (filter (fun l => negb (l_matched c R l)) L)
  | LeftSemi => filter (l_matched c R) L
  | LeftAnti => filter (fun l => negb (l_matched c R l)) L
  | LeftMark => map (fun l => mark c l (l_matched c R l)) L
  | _ => []
  end.
Definition right_rows (t : join_type) (c : condition) (L R : list row) : list row :=
  match t with
  | Right | Full => map (fun r => pair c None (Some r)) (filter (fun r => negb (r_matched c L r)) R)
  | RightSemi => filter (r_matched c L) R
  | RightAnti => filter (fun r => negb (r_matched c L r)) R
  | RightMark => map (fun r => mark c r (r_matched c L r)) R
  | _ => []
  end.

Definition emits_pairs (t : join_type) : bool :=
  match t with Inner | Left | Right | Full => true | _ => false end.

Definition join (t : join_type) (c : condition) (L R : list row) : list row :=
  (if emits_pairs t then pairs c L R else []) ++ left_rows t c L R ++ right_rows t c L R.

(** Joins that may emit rows of the left table on their own account, and so need to see all of the right
    table before they do. *)
Definition emits_left (t : join_type) : bool :=
  match t with Left | Full | LeftSemi | LeftAnti | LeftMark => true | _ => false end.

(** A cross join. *)
Definition cross (c : condition) (L R : list row) : list row :=
  flat_map (fun l => map (fun r => pair c (Some l) (Some r)) R) L.

(** The rows of hash class [p] of [n]. *)
Definition class (h : row -> nat) (n p : nat) (X : list row) : list row :=
  filter (fun r => h r mod n =? p) X.

(** [l NOT IN R] as a null-aware anti join: a null on the right hides everything, a null on the left
    is returned only when the right side is empty. *)
Definition null_aware_anti (lkey rkey : row -> option nat) (L R : list row) : list row :=
  match R with
  | [] => L
  | _ =>
      if existsb (fun r => match rkey r with None => true | Some _ => false end) R then []
      else filter (fun l => match lkey l with
                            | None => false
                            | Some k => negb (existsb (fun r => match rkey r with
                                                                | Some k' => k =? k'
                                                                | None => false
                                                                end) R)
                            end) L
  end.

(** The same condition with the two sides exchanged. *)
Definition flip (c : condition) : condition :=
  mkCond (fun a b => matches c b a) (fun a b => pair c b a) (mark c).
End Join.

(** Joins with a collected left side whose tasks cannot each work on a share of the right side: the left
    side cannot be broadcast because broadcasts are off, because rows of the left side would be emitted by
    every task, or because a null anywhere on the right matters. *)
Definition one_task_join (broadcasts : bool) (j : join_op) : bool :=
  match j with
  | HashJoin false _ _ => false
  | HashJoin true null_aware t => negb broadcasts || null_aware || emits_left t
  | NestedLoop t => negb broadcasts || emits_left t
  | Cross => negb broadcasts
  end.
Arguments condition : clear implicits.
