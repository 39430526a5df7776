(** Vocabulary of the broadcast theorems. *)
From Verif Require Import Base CiuModel BcastModel.

Section Spec.
Context {batch err : Type}.

(** The messages a reader of the input would use: up to and including the first error. *)
Fixpoint until_error (l : list (@msg batch err)) : list msg :=
  match l with
  | [] => []
  | inl b :: rest => inl b :: until_error rest
  | inr e :: _ => [inr e]
  end.

(** The state of the stream handed out as (slot, number). *)
Definition stream_at (st : @state batch err) (h : nat * nat) : option (running * consumer) :=
  match nth_error (st_slots st) (fst h) with
  | Some (Live r) => option_map (pair r) (nth_error (r_consumers r) (snd h))
  | _ => None
  end.

Definition prefix {A} (a b : list A) : Prop := exists rest, b = a ++ rest.

(** How many calls of [execute] for input partition [real] were answered so far. *)
Definition calls (nd : @node batch err) (st : @state batch err) (real : nat) : nat :=
  List.length (filter (fun '(p, _) => p mod List.length (n_input nd) =? real) (st_answers st)).

(** Only the stream [h] is polled, nothing else moves. *)
Definition polls_of (nd : @node batch err) (h : nat * nat) (st st' : @state batch err) : Prop :=
  exists r c, stream_at st h = Some (r, c) /\
    st' = mkState (upd (st_slots st) (fst h)
            (Live (mkRunning (r_queue r) (r_producer r) (upd (r_consumers r) (snd h) (consumer_next (r_queue r) c))
                             (r_popped r) (r_crashed r)))) (st_executed st) (st_answers st).
End Spec.
