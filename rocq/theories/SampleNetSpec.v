(** Vocabulary of the theorems about sampling over a connection. *)
From Verif Require Import Base CiuModel DemuxModel DemuxSpec SamplerModel GatherModel SampleNetModel.

Section Spec.
Context {data err : Type}.
Notation sampling := (@sampling data err).

(** The messages that wait in the client for partition [i]. *)
Definition waiting_for (s : sampling) (i : nat) : list (@item data + err) :=
  match nth_error (k_parts (sp_conn s)) i with Some p => p_queue p | None => [] end.

(** Bytes that wait for partitions that have reported. *)
Definition kept_bytes (s : sampling) : nat := list_sum (map (fun i => bytes (waiting_for s i)) (sp_reported s)).

(** Partitions that have not reported and for which something waits. *)
Definition can_report (s : sampling) : list nat :=
  filter (fun i => negb (existsb (Nat.eqb i) (sp_reported s)) && negb (match waiting_for s i with [] => true | _ => false end))
    (seq 0 (List.length (k_parts (sp_conn s)))).
End Spec.
