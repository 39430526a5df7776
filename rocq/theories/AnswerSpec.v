(** Plans that can answer whatever rows their scans have. *)
From Verif Require Import Base NetModel NetSpec CiuModel EventsModel JoinModel JoinSpec PlannerModel ExecModel.

Section Spec.
Context {row : Type}.

(** An order by which rows can be sorted. *)
Definition sorting_order (le : row -> row -> Prop) : Prop :=
  (forall a b, le a b \/ le b a) /\ (forall a b c, le a b -> le b c -> le a c).

(** Sort-preserving merges compare any two rows, and the right sides of joins have partitions. *)
Fixpoint answerable (t : tree row) : Prop :=
  match t with
  | Node k cs =>
      match k, cs with
      | KCoalesce (Some le) _, _ => sorting_order le
      | KJoin _ _ _ _ _, [_; r] => 1 <= tparts r
      | _, _ => True
      end /\ Forall (fun P => P) (map answerable cs)
  | Ciu _ _ cs => Forall (fun P => P) (map answerable cs)
  | Net _ _ _ _ _ i => answerable i
  end.

(** Sort-preserving merges compare any two rows. *)
Fixpoint comparable (t : tree row) : Prop :=
  match t with
  | Node k cs =>
      match k with KCoalesce (Some le) _ => sorting_order le | _ => True end /\ Forall (fun P => P) (map comparable cs)
  | Ciu _ _ cs => Forall (fun P => P) (map comparable cs)
  | Net _ _ _ _ _ i => comparable i
  end.

(** Every operator has an answer for every input. *)
Definition always_answers (acts : op row -> list row -> list row -> Prop) : Prop := forall o l, exists out, acts o l out.
End Spec.
