(** Vocabulary of the theorems about merging streams of the network. *)
From Verif Require Import Base CiuModel DemuxModel DemuxSpec MergeNetModel.

Section Spec.
Context {data err : Type}.
Notation source_item := (@item data + err)%type.

(** All histories of a merge of what [tasks] yield: a list of streams for each producer task. *)
Definition merge_reachable (start budget capacity prefetch : nat) (bad : nat -> err)
    (tasks : list (list (list source_item))) (ls : list link) : Prop :=
  steps (merge_step start budget capacity prefetch bad) (merge_init tasks) ls.

(** The merge has used up every batch of every stream, and every stream has ended. *)
Definition merged_all (tasks : list (list (list source_item))) (ls : list (@link data err)) : Prop :=
  List.length ls = List.length tasks /\
  forall c i l sources S, nth_error ls c = Some l -> nth_error tasks c = Some sources -> nth_error sources i = Some S ->
    exists p, nth_error (k_parts (ln_conn l)) i = Some p /\ p_ended p = true /\ p_got p = S /\
      nth_error (ln_used l) i = Some (List.length S).

(** The number of batches that the merge has used up, stream by stream. *)
Definition used (ls : list (@link data err)) : list (list nat) := map ln_used ls.

(** A stream for which there is no more room outside of the connection. *)
Definition full (prefetch : nat) (l : @link data err) (i : nat) : Prop :=
  exists p u, nth_error (k_parts (ln_conn l)) i = Some p /\ nth_error (ln_used l) i = Some u /\
    u + prefetch <= List.length (p_got p).
(** A stream that has not ended, none of whose batches is there for the merge. *)
Definition starved (l : @link data err) (i : nat) : Prop :=
  exists p u, nth_error (k_parts (ln_conn l)) i = Some p /\ nth_error (ln_used l) i = Some u /\
    p_ended p = false /\ List.length (p_got p) = u /\ p_queue p = [].
(** The bytes that wait in the connection for a stream. *)
Definition queued (l : @link data err) (i : nat) : nat :=
  match nth_error (k_parts (ln_conn l)) i with Some p => bytes (p_queue p) | None => 0 end.
End Spec.
