(** Vocabulary of C80: what a line of EXPLAIN ANALYZE says. *)
From Verif Require Import Base ShowModel.
From Coq Require Import NArith String Sorting.Sorted.
Open Scope string_scope.

Section Spec.
Variables (sort_key : nat -> nat) (timestamp : nat -> bool) (op : nat -> N -> N -> N) (unit : nat -> N)
  (display : mvalue -> string).

(** All metrics of a name are of one variant. *)
Definition one_kind (ms : list metric) : Prop :=
  forall a b, In a ms -> In b ms -> name a = name b -> variant (mval a) = variant (mval b).
(** No metric has a label of that name. *)
Definition unlabelled (ms : list metric) : Prop :=
  forall m, In m ms -> ~ In task_label (map fst (mlabels m)).

(** The numbers recorded under a name, and their total. *)
Definition amounts (n : string) (ms : list metric) : list N :=
  map (fun m => amount (mval m)) (filter (fun m => String.eqb (name m) n) ms).
Definition total (v : nat) (l : list N) : N := fold_left (op v) l (unit v).

(** What is shown: for each name a list of values, each of a task or of none. *)
Definition line := list (string * list (option N * mvalue)).
Definition text_entry (e : option N * mvalue) : string :=
  match fst e with
  | Some t => show t ++ ":" ++ display (snd e)
  | None => display (snd e)
  end.
Definition text_group (g : string * list (option N * mvalue)) : string :=
  let shown := String.concat ", " (map text_entry (snd g)) in
  fst g ++ "=" ++ match snd g with (Some _, _) :: _ => "{" ++ shown ++ "}" | _ => shown end.
Definition text (gs : line) : string := String.concat ", " (map text_group gs).

(** No name twice; the tasks of a name in order, each once. *)
Definition earlier (a b : option N) : Prop :=
  match a, b with
  | None, Some _ => True
  | Some x, Some y => (x < y)%N
  | _, None => False
  end.
Definition tidy (gs : line) : Prop :=
  NoDup (map fst gs) /\ forall n es, In (n, es) gs -> es <> [] /\ StronglySorted earlier (map fst es).
End Spec.
