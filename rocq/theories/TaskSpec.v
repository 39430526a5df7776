(** Vocabulary of the theorems on the write-once slot, the worker's task registry and the metrics store. *)
From Verif Require Import Base CiuModel TaskModel.

Section Slot.
Context {T : Type}.
Definition swmr_reachable (s : swmr T) : Prop := steps swmr_step swmr_new s.
(** The value of the first write. *)
Definition first_write (s : swmr T) : option T := match sw_writes s with [] => None | (v, _) :: _ => Some v end.
End Slot.

Section Worker.
Context {plan head err : Type}.
Variable insert : head -> plan -> plan + err.
Notation worker := (worker plan head err).

Definition worker_reachable (w : worker) : Prop := steps (worker_step insert) worker_new w.
Definition monitored_reachable (m : monitored plan head err) : Prop := steps (monitored_step insert) monitored_new m.

(** The data request [i] asked task [k] with head [h] and was answered [a]. *)
Definition answered (w : worker) (i k : nat) (h : head) (a : answer plan err) : Prop :=
  exists e, nth_error (wk_requests w) i = Some (mkDrequest k h e (Some a)).

(** Channel [i] was opened for task [k] with a plan that builds to [build]. *)
Definition set_plan_made (w : worker) (i k : nat) (build : plan + err) : Prop :=
  exists e c ph, nth_error (wk_channels w) i = Some (mkChannel k e build c ph).

(** Nothing is going on for task [k]: no channel is building, listening or cleaning up, no request waits. *)
Definition quiet (w : worker) (k : nat) : Prop :=
  (forall ch, In ch (wk_channels w) -> ch_key ch = k ->
     match ch_phase ch with Building | Listening | Finished _ => False | Rejected | BuildFailed | Closed _ => True end) /\
  (forall r, In r (wk_requests w) -> dr_key r = k -> dr_answer r <> None).

(** The number of channels and requests that ever arrived for task [k]. *)
Definition arrivals (w : worker) (k : nat) : nat :=
  List.length (filter (fun ch => ch_key ch =? k) (wk_channels w)) +
  List.length (filter (fun r => dr_key r =? k) (wk_requests w)).
(** The number of channels that ever arrived for task [k]. *)
Definition plans_set (w : worker) (k : nat) : nat := List.length (filter (fun ch => ch_key ch =? k) (wk_channels w)).
End Worker.
