(** Vocabulary of the event theorems. *)
From Verif Require Import Base NetModel EventsModel.

(** The tightest of a list of annotations: any maximum beats all wishes, the smallest maximum wins,
    otherwise the largest wish. *)
Definition maxima (l : list annotation) : list nat :=
  flat_map (fun a => match a with Maximum n => [n] | Desired _ => [] end) l.
Definition wishes (l : list annotation) : list nat :=
  flat_map (fun a => match a with Desired n => [n] | Maximum _ => [] end) l.

Definition is_tightest (l : list annotation) (r : annotation) : Prop :=
  match r with
  | Maximum n => In n (maxima l) /\ forall m, In m (maxima l) -> n <= m
  | Desired n => maxima l = [] /\ In n (wishes l) /\ forall m, In m (wishes l) -> m <= n
  end.

(** A list of answers in the order the handlers were registered. [first_answer] is the answer of the
    first handler that gives one. *)
Fixpoint first_answer {T} (answers : list (option T)) : option T :=
  match answers with
  | [] => None
  | Some x :: _ => Some x
  | None :: rest => first_answer rest
  end.

(** How many tasks a worker got. *)
Definition load {url} (eqb : url -> url -> bool) (urls : list url) (w : url) : nat :=
  List.length (filter (eqb w) urls).

Section LeafSpec.
Context {row : Type}.

(** The rows of all partitions of a leaf, if they all execute. *)
Definition leaf_rows (l : leaf row) : Res (list row) :=
  let* parts := mapM (lf_exec l) (seq 0 (lf_parts l)) in Ok (List.concat parts).

(** All rows in a list of file groups. *)
Definition group_rows (groups : list (list (list row))) : list row := List.concat (List.concat groups).

End LeafSpec.
