(** Vocabulary of the theorems about work unit feeds. *)
From Verif Require Import Base NetModel FeedModel.

Section Spec.
Context {unit_ : Type}.

(** The units of a stream. *)
Definition units (l : list (item unit_)) : list unit_ :=
  flat_map (fun x => match x with Unit_ u => [u] | Bad _ => [] end) l.
(** What was taken from a provider's stream so far. *)
Definition pulled (s : source unit_) : list (item unit_) := firstn (taken s) (made s).

Definition prefix {A} (a b : list A) : Prop := exists r, b = a ++ r.

(** Everything the providers of a task made was taken from them, without an error, and they ended. *)
Definition fed_completely (t : task unit_) : Prop :=
  forall pos n p j, nth_error (nodes t) pos = Some n -> In (p, j) (feed_calls n) ->
    ended (sources t pos j) = true /\ pulled (sources t pos j) = made (sources t pos j) /\
    forall e, ~ In (Bad e) (made (sources t pos j)).

(** Feed ids are unique among the nodes of a task. *)
Definition own_ids (t : task unit_) : Prop := NoDup (map nid (nodes t)).
End Spec.
