(** Vocabulary of the theorems of C87. *)
From Verif Require Import Base CiuModel TaskModel TaskSpec.

Section Worker.
Context {plan head err : Type}.
Variable insert : head -> plan -> plan + err.
Notation worker := (worker plan head err).

(** The coordinator sent the plan of task [k], it was built to [p], and the task was not yet closed. *)
Definition task_open (w : worker) (k : nat) (p : plan) : Prop :=
  exists ch, In ch (wk_channels w) /\ ch_key ch = k /\ ch_build ch = inl p /\
    (ch_phase ch = Listening \/ exists sent, ch_phase ch = Finished sent).

(** The entry of task [k] is thrown out of the cache although nothing else happens. *)
Definition evicts (k : nat) (w w' : worker) : Prop :=
  wk_channels w' = wk_channels w /\ wk_requests w' = wk_requests w /\ cached w k <> None /\ cached w' k = None.

Definition reachable_without_evicting (k : nat) (w : worker) : Prop :=
  steps (fun a b => worker_step insert a b /\ ~ evicts k a b) worker_new w.
End Worker.
