(** Vocabulary of C101. *)
From Coq Require Import ZArith.
From Verif Require Import Base CiuModel BcastModel BcastLifeModel BcastSpec.

Section Spec.
Context {batch err : Type}.
Variable size : batch -> N.

(** The stream [h] was handed out and its reader still has it. *)
Definition being_read (l : @life batch err) (h : nat * nat) : Prop :=
  exists r c, stream_at (l_base l) h = Some (r, c) /\ snd h < r_popped r /\ ~ In h (l_gone l).

(** The cache of an input partition is of use: its task has not come to its end, a reader has a stream, or the plan exists and
    not all readers have come. *)
Definition of_use (nd : @node batch err) (l : @life batch err) (real : nat) (r : @running batch err) : Prop :=
  r_producer r <> Finished \/ (exists k, being_read l (real, k)) \/ (l_node l = true /\ r_popped r < n_consumers nd).

(** The batches that the task of a partition has read so far. *)
Definition batches_read (r : @running batch err) : list batch :=
  flat_map (fun m => match m with inl b => [b] | inr _ => [] end) (q_entries (r_queue r)).
Definition bytes_of (l : list batch) : Z := fold_right (fun b n => (Z.of_N (size b) + n)%Z) 0%Z l.

(** [n] is the sum of what [each] gives for the partitions. *)
Inductive sum_over (each : nat -> @slot_state batch err -> Z -> Prop) : nat -> list slot_state -> Z -> Prop :=
| sum_nil i : sum_over each i [] 0%Z
| sum_cons i s slots x n : each i s x -> sum_over each (S i) slots n -> sum_over each i (s :: slots) (x + n)%Z.

(** What an input partition should have reserved: each batch once while the cache is of use, nothing otherwise. *)
Definition should_reserve (nd : @node batch err) (l : @life batch err) (real : nat) (s : @slot_state batch err) (n : Z) : Prop :=
  match s with
  | Live r => (of_use nd l real r /\ n = bytes_of (batches_read r)) \/ (~ of_use nd l real r /\ n = 0%Z)
  | _ => n = 0%Z
  end.

(** Nobody is interested any more: the plan was dropped, and so were all streams. *)
Definition abandoned (l : @life batch err) : Prop := l_node l = false /\ forall h, ~ being_read l h.

(** What the input of a partition yields to somebody who reads it. *)
Definition input_bytes (inp : list (@msg batch err) + err) : Z :=
  match inp with
  | inl todo => bytes_of (flat_map (fun m => match m with inl b => [b] | inr _ => [] end) (until_error todo))
  | inr _ => 0%Z
  end.
Definition all_bytes (nd : @node batch err) : Z := fold_right (fun i n => (input_bytes i + n)%Z) 0%Z (n_input nd).
End Spec.
