(** Vocabulary of C91: the leaves whose rows flow through a plan, in the sense of the streamed sides of its joins. *)
From Verif Require Import Base DriverModel.
From Coq Require Import NArith.

(** [streams p at_ id]: the operator [id] at [at_] is a leaf, and no join on the way to it has it on its build side. *)
Inductive streams : dplan -> list nat -> nat -> Prop :=
| streams_leaf id : streams (DOther id []) [] id
| streams_join j l r at_ id : streams r at_ id -> streams (DJoin j l r) (1 :: at_) id
| streams_other o cs i c at_ id : nth_error cs i = Some c -> streams c at_ id -> streams (DOther o cs) (i :: at_) id.

(** [lists p leaves]: exactly the streamed leaves of [p], each position once, from left to right. *)
Definition earlier_leaf (a b : list nat) : Prop :=
  exists pre i j ra rb, a = pre ++ i :: ra /\ b = pre ++ j :: rb /\ i < j.
Definition lists (p : dplan) (leaves : list (list nat * nat)) : Prop :=
  (forall at_ id, In (at_, id) leaves <-> streams p at_ id) /\
  forall i j a b, i < j -> nth_error (map fst leaves) i = Some a -> nth_error (map fst leaves) j = Some b -> earlier_leaf a b.

Definition sum (l : list N) : N := fold_right N.add 0%N l.
Definition value (o : option N) : N := match o with Some n => n | None => 0%N end.
(** Rows of the given leaves, by a counter per operator. *)
Definition rows_of (counter : nat -> option N) (leaves : list (list nat * nat)) : N :=
  sum (map (fun '(_, id) => value (counter id)) leaves).
