(** Vocabulary of the positive part of C54. *)
From Verif Require Import Base NetModel PlannerModel PlannerSpec.

Section Spec.
Context {row : Type}.
Notation tree := (tree row).

(** Below [t], in the same stage, there is a coalescing node that does not read a shuffle or a broadcast. *)
Fixpoint folded (t : tree) : Prop :=
  match t with
  | Node (KCoalesce _ _) [Net BShuffle _ _ _ _ _] | Node (KCoalesce _ _) [Net BBroadcast _ _ _ _ _] => False
  | Node (KCoalesce _ _) [_] => True
  | Node _ cs => fold_right or False (map folded cs)
  | _ => False
  end.

(** An operator that needs its whole input in one partition and has it from a coalescing node of its stage is executed by
    one task. *)
Definition folded_alone (n : nat) (t : tree) : Prop :=
  match t with
  | Node k (_ :: _) => needs_whole_input k = true -> folded t -> n = 1
  | _ => True
  end.
End Spec.
