(** Vocabulary of the theorems on executing a plan several times. *)
From Verif Require Import Base CiuModel TaskModel ReexecModel.

Section Site.
Context {plan head err : Type}.
Variable insert : head -> plan -> plan + err.
Variable dynamic : bool.
Variable planned : list nat.
Variable task_plan : nat -> nat -> plan.
Variable collects : bool.
Notation site := (site plan head err).

(** The states that [n] workers and any number of runs of the plan get into. *)
Definition site_reachable (n : nat) (s : site) : Prop :=
  steps (site_step insert dynamic planned task_plan collects) (site_new n) s.

(** A data request of run [x] for task [k] at worker [u] with head [h] that found entry [e] there; its answer so far. *)
Definition asked (s : site) (x u k : nat) (h : head) (e : nat) (a : option (answer plan err)) : Prop :=
  exists q w, In q (si_asks s) /\ as_run q = x /\ as_url q = u /\ nth_error (si_workers s) u = Some w /\
    nth_error (wk_requests w) (as_req q) = Some (mkDrequest k h e a).

(** The plan of run [x] for task [k] reached worker [u], as channel [j], which is in phase [ph]. *)
Definition plan_at (s : site) (x u k j : nat) (ph : phase plan) : Prop :=
  exists c w ch, In c (si_calls s) /\ ca_run c = x /\ ca_key c = k /\ ca_url c = u /\ ca_chan c = Some j /\
    nth_error (si_workers s) u = Some w /\ nth_error (wk_channels w) j = Some ch /\ ch_phase ch = ph.

(** Nothing of the task [k] is left to be done or cleaned up at worker [u]: each plan for it was refused, or used and
    cleaned up. *)
Definition cleaned (s : site) (u k : nat) : Prop :=
  forall w j ch, nth_error (si_workers s) u = Some w -> nth_error (wk_channels w) j = Some ch -> ch_key ch = k ->
    ch_phase ch = Rejected \/ exists sent, ch_phase ch = Closed sent.

(** The result of run [x], once its caller has it. *)
Definition ended (s : site) (x : nat) (ok : bool) : Prop :=
  exists r, nth_error (si_runs s) x = Some r /\ ru_result r = Some ok.
Definition task_of (s : site) (x k : nat) : Prop := exists r, nth_error (si_runs s) x = Some r /\ In k (ru_keys r).
End Site.
