(** Vocabulary of the connection theorems. *)
From Verif Require Import Base CiuModel DemuxModel.

Section Spec.
Context {data err : Type}.
Notation source_item := (@item data + err)%type.

Definition conn_prefix {A} (a b : list A) : Prop := exists rest, b = a ++ rest.

(** The messages, without errors, of a sequence. *)
Definition messages (l : list source_item) : list (@item data) :=
  flat_map (fun m => match m with inl it => [it] | inr _ => [] end) l.

(** No error in a sequence. *)
Definition error_free (l : list source_item) : Prop := forall e, ~ In (inr e) l.

(** All histories of a connection serving [sources] from partition [start] on. *)
Definition conn_reachable (start budget capacity : nat) (bad : nat -> err) (sources : list (list source_item))
    (k : conn) : Prop :=
  steps (conn_step start budget capacity bad) (conn_init sources) k.

(** Bytes buffered for streams that still exist, including the message being handed over. *)
Definition buffered (k : @conn data err) : nat :=
  list_sum (map (fun p => if p_live p then bytes (p_queue p) else 0) (k_parts k)) +
  match k_phase k with Sending _ it => it_size it | _ => 0 end.

(** Steps of a connection in which nobody drops a stream, nothing crashes and the transport works: an error
    is only reported if some partition yielded it. *)
Definition calm (k k' : @conn data err) : Prop :=
  map p_live (k_parts k') = map p_live (k_parts k) /\ map p_lost (k_parts k') = map p_lost (k_parts k) /\
  k_crashed k' = k_crashed k /\ k_cancelled k' = k_cancelled k /\
  (k_failed k' = k_failed k \/
   exists p e, In p (k_parts k) /\ In (inr e) (p_buf p) /\ k_failed k' = Some e).
Definition calm_step (start budget capacity : nat) (bad : nat -> err) (k k' : @conn data err) : Prop :=
  conn_step start budget capacity bad k k' /\ calm k k'.

(** Everything a partition's consumer has received or can receive without the connection doing anything. *)
Definition delivered (k : @conn data err) (i : nat) : option (list source_item) :=
  option_map (fun p => p_got p ++ p_queue p) (nth_error (k_parts k) i).
End Spec.
