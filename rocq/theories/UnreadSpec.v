(** Vocabulary of the positive part of C50: streams of a connection that nobody reads. *)
From Verif Require Import Base CiuModel DemuxModel DemuxSpec.

Section Spec.
Context {data err : Type}.
Notation source_item := (@item data + err)%type.

(** All bytes of the partitions in [unread]; the first source has number [i]. *)
Fixpoint unread_bytes (unread : nat -> bool) (i : nat) (sources : list (list source_item)) : nat :=
  match sources with
  | [] => 0
  | s :: rest => (if unread i then bytes s else 0) + unread_bytes unread (S i) rest
  end.

(** Nobody polls the streams in [unread]. *)
Definition leaves_alone (unread : nat -> bool) (k k' : @conn data err) : Prop :=
  forall i, unread i = true ->
    option_map (fun p => (p_polled p, p_got p, p_ended p)) (nth_error (k_parts k') i) =
    option_map (fun p => (p_polled p, p_got p, p_ended p)) (nth_error (k_parts k) i).

(** A step in which nothing breaks, no stream is dropped and the streams in [unread] are not polled. *)
Definition quiet_step (unread : nat -> bool) (start budget capacity : nat) (bad : nat -> err) (k k' : @conn data err) : Prop :=
  calm_step start budget capacity bad k k' /\ leaves_alone unread k k'.
End Spec.
