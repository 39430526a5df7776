(** Vocabulary of the theorems about failures. *)
From Verif Require Import Base NetModel CiuModel EventsModel PlannerModel ExecModel.

Section Spec.
Context {row : Type}.

(** Every partition of every scan of [t], executed by [n] tasks, can be read. *)
Fixpoint readable (remote : bool) (t : tree row) (n : nat) {struct t} : Prop :=
  match t with
  | Node k cs =>
      (match k with
       | KLeaf l => forall i p, i < n -> p < leaf_parts l -> exists rows, leaf_runs remote l (mkCtx i n) p rows
       | _ => True
       end) /\ Forall (fun P => P) (map (fun c => readable remote c n) cs)
  | Ciu _ m cs => Forall (fun P => P)
      (map (fun '(P, k) => P k) (combine (map (readable remote) cs) (map_task_counts (List.length cs) m)))
  | Net _ _ _ _ tasks plan => readable true plan tasks
  end.
End Spec.
