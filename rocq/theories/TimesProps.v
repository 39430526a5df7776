(** Property C85: the times of a task are true and in order. *)
From Verif Require Import Base CiuModel TimesModel TimesSpec TimesProofs.
From Coq Require Import Lia.

(** By a clock that is never set back, the reported times are times since the start of the query: the plan was set at [t0], the
    execution started and the task ended at moments after that. *)
Theorem C85_times_are_true qs t0 s a e f :
  steps (tstep qs steady) (new_task qs t0) s -> loop s = Reported a e f ->
  a = since qs t0 /\ a <= e /\ a <= f /\
  (exists te, t0 <= te <= clock s /\ e = since qs te) /\ (exists tf, t0 <= tf <= clock s /\ f = since qs tf).
Proof.
  intros H L. pose proof (f_loop _ _ _ (reachable_fine qs t0 s H)) as F. rewrite L in F. destruct F as (Fa & Fe & Ff).
  rewrite (f_added _ _ _ (reachable_fine qs t0 s H)) in Fa. subst a.
  split; [reflexivity|]. split; [|split; [|split; assumption]].
  - destruct Fe as (t & Ht & ->). unfold since. lia.
  - destruct Ff as (t & Ht & ->). unfold since. lia.
Qed.
Print Assumptions C85_times_are_true.

(** Once a request has written its time and no other one is about to, the start of the execution does not change: later
    requests do not move it. *)
Theorem C85_start_is_kept qs t0 s s' :
  steps (tstep qs steady) (new_task qs t0) s -> executed s <> 0 -> no_race s -> steps (tstep qs steady) s s' ->
  executed s' = executed s.
Proof.
  intros H He Hn H'. revert Hn. pattern s'. revert s' H'.
  enough (forall s', steps (tstep qs steady) s s' -> no_race s -> no_race s' /\ executed s' = executed s) as G.
  { intros s' H' Hn. exact (proj2 (G s' H' Hn)). }
  intros s' H' Hn. refine (steps_invariant (tstep qs steady) (fun x => no_race x /\ executed x = executed s) _ _ _ _ H');
    [split; [exact Hn|reflexivity]|].
  intros x y [N E] S. inversion S as [| |? i Hi|? i Hi|? i t Hi|? i ok Hi| | | | | |]; subst; cbn [requests executed]; try (split; [exact N|exact E]).
  - split; [|exact E]. intros r Hr. cbn in Hr. apply in_app_or in Hr as [Hr|[<-|[]]]; [auto|split; discriminate].
  - split; [|exact E]. rewrite E. destruct (executed s =? 0) eqn:Z; [apply Nat.eqb_eq in Z; contradiction|].
    unfold no_race; cbn [requests]. apply no_race_upd; [exact N|discriminate|discriminate].
  - exfalso. apply nth_error_In in Hi. destruct (N _ Hi). contradiction.
  - exfalso. apply nth_error_In in Hi. destruct (N _ Hi) as [_ N']. exact (N' t eq_refl).
  - split; [|exact E]. unfold no_race; cbn [requests]. apply no_race_upd; [exact N|discriminate|discriminate].
Qed.
Print Assumptions C85_start_is_kept.

(** If no request is about to write its time when the task ends, the execution started before it ended. *)
Theorem C85_started_before_ended_partial qs t0 s s' a e f :
  steps (tstep qs steady) (new_task qs t0) s -> loop s = Has_plan -> no_race s ->
  steps (tstep qs steady) s s' -> loop s' = Reported a e f -> e <= f.
Proof.
  intros H L Hn H' L'. pose proof (reachable_fine qs t0 s H) as F.
  assert (Hz : executed s <> 0).
  { apply (f_final _ _ _ F). pose proof (f_loop _ _ _ F) as G. rewrite L in G. exact G. }
  assert (S : settled qs t0 (clock s - qs) (executed s) s).
  { split; [exact F|]. split; [exact Hn|]. split; [exact Hz|]. split; [reflexivity|]. split; [lia|].
    pose proof (f_executed _ _ _ F) as [E|(t & Ht & E)]; [contradiction|]. split; [rewrite E; unfold since; lia|].
    rewrite L. left. enough (G : forall s, steps (tstep qs steady) (new_task qs t0) s ->
      match loop s with Listening | Has_plan | End_read _ | Nothing => finished s = 0 | _ => True end).
    { specialize (G s H). now rewrite L in G. }
    clear. intros s H. refine (steps_invariant (tstep qs steady) (fun s => match loop s with
      Listening | Has_plan | End_read _ | Nothing => finished s = 0 | _ => True end) (new_task qs t0) _ (eq_refl 0) _ H). clear s H. intros s s' IH S.
    inversion S; subst; cbn [loop finished] in *; auto;
      repeat match goal with E : loop s = _ |- _ => rewrite E in IH; clear E end; auto.
    destruct (final s) as [[]|]; auto. }
  pose proof (settled_steps qs t0 _ _ _ _ S H') as (_ & _ & _ & _ & _ & _ & G). rewrite L' in G. destruct G as [-> G]. exact G.
Qed.
Print Assumptions C85_started_before_ended_partial.

(** ** Cases *)
Module TimesEx.
Definition one (c e f : nat) (fin : option bool) (r : request) (l : ending) : task := mkTask c 5 e f fin [r] l.
(** The plan is set at 105, executed at 107, ended at 120, for a query that started at 100. *)
Lemma plain : steps (tstep 100 steady) (new_task 100 105) (one 120 7 0 (Some true) Planned Has_plan) /\
  no_race (one 120 7 0 (Some true) Planned Has_plan) /\
  steps (tstep 100 steady) (one 120 7 0 (Some true) Planned Has_plan) (one 120 7 20 (Some true) Planned (Reported 5 7 20)).
Proof.
  split; [|split].
  - refine (steps_next _ _ _ _ _ (t_end 100 steady (one 120 7 0 (Some true) Planned Listening) eq_refl)).
    refine (steps_next _ _ _ _ _ (t_clock 100 steady (one 107 7 0 (Some true) Planned Listening) 120 _)); [|unfold steady; cbn; lia].
    refine (steps_next _ _ _ _ _ (t_plan 100 steady (one 107 7 0 None Marked Listening) 0 true eq_refl)).
    refine (steps_next _ _ _ _ _ (t_mark 100 steady (one 107 0 0 None (Has_read 7) Listening) 0 7 eq_refl)).
    refine (steps_next _ _ _ _ _ (t_read 100 steady (one 107 0 0 None Found_none Listening) 0 eq_refl)).
    refine (steps_next _ _ _ _ _ (t_check 100 steady (one 107 0 0 None Arrived Listening) 0 eq_refl)).
    refine (steps_next _ _ _ _ _ (t_clock 100 steady (one 105 0 0 None Arrived Listening) 107 _)); [|unfold steady; cbn; lia].
    exact (steps_next _ _ _ _ (steps_refl _ _) (t_request 100 steady (new_task 100 105))).
  - intros r [<-|[]]. split; discriminate.
  - refine (steps_next _ _ _ _ _ (t_load3 100 steady (one 120 7 20 (Some true) Planned (Loaded2 5 7)) 5 7 eq_refl)).
    refine (steps_next _ _ _ _ _ (t_load2 100 steady (one 120 7 20 (Some true) Planned (Loaded1 5)) 5 eq_refl)).
    refine (steps_next _ _ _ _ _ (t_load1 100 steady (one 120 7 20 (Some true) Planned End_marked) eq_refl)).
    refine (steps_next _ _ _ _ _ (t_end_mark 100 steady (one 120 7 0 (Some true) Planned (End_read 20)) 20 eq_refl)).
    exact (steps_next _ _ _ _ (steps_refl _ _) (t_end_read 100 steady (one 120 7 0 (Some true) Planned Has_plan) eq_refl)).
Qed.
Definition two (c e f : nat) (fin : option bool) (r r' : request) (l : ending) : task := mkTask c 5 e f fin [r; r'] l.
Lemma raced : steps (tstep 100 steady) (new_task 100 105) (two 130 30 20 (Some true) Planned Marked (Reported 5 30 20)).
Proof.
  refine (steps_next _ _ _ _ _ (t_load3 100 steady (two 130 30 20 (Some true) Planned Marked (Loaded2 5 30)) 5 30 eq_refl)).
  refine (steps_next _ _ _ _ _ (t_load2 100 steady (two 130 30 20 (Some true) Planned Marked (Loaded1 5)) 5 eq_refl)).
  refine (steps_next _ _ _ _ _ (t_load1 100 steady (two 130 30 20 (Some true) Planned Marked End_marked) eq_refl)).
  refine (steps_next _ _ _ _ _ (t_mark 100 steady (two 130 5 20 (Some true) Planned (Has_read 30) End_marked) 1 30 eq_refl)).
  refine (steps_next _ _ _ _ _ (t_read 100 steady (two 130 5 20 (Some true) Planned Found_none End_marked) 1 eq_refl)).
  refine (steps_next _ _ _ _ _ (t_clock 100 steady (two 120 5 20 (Some true) Planned Found_none End_marked) 130 _)); [|unfold steady; cbn; lia].
  refine (steps_next _ _ _ _ _ (t_end_mark 100 steady (two 120 5 0 (Some true) Planned Found_none (End_read 20)) 20 eq_refl)).
  refine (steps_next _ _ _ _ _ (t_end_read 100 steady (two 120 5 0 (Some true) Planned Found_none Has_plan) eq_refl)).
  refine (steps_next _ _ _ _ _ (t_end 100 steady (two 120 5 0 (Some true) Planned Found_none Listening) eq_refl)).
  refine (steps_next _ _ _ _ _ (t_clock 100 steady (two 105 5 0 (Some true) Planned Found_none Listening) 120 _)); [|unfold steady; cbn; lia].
  refine (steps_next _ _ _ _ _ (t_plan 100 steady (two 105 5 0 None Marked Found_none Listening) 0 true eq_refl)).
  refine (steps_next _ _ _ _ _ (t_mark 100 steady (two 105 0 0 None (Has_read 5) Found_none Listening) 0 5 eq_refl)).
  refine (steps_next _ _ _ _ _ (t_read 100 steady (two 105 0 0 None Found_none Found_none Listening) 0 eq_refl)).
  refine (steps_next _ _ _ _ _ (t_check 100 steady (two 105 0 0 None Found_none Arrived Listening) 1 eq_refl)).
  refine (steps_next _ _ _ _ _ (t_check 100 steady (two 105 0 0 None Arrived Arrived Listening) 0 eq_refl)).
  refine (steps_next _ _ _ _ _ (t_request 100 steady (one 105 0 0 None Arrived Listening))).
  exact (steps_next _ _ _ _ (steps_refl _ _) (t_request 100 steady (new_task 100 105))).
Qed.
End TimesEx.

(** Two requests at the same time: the second may write its time after the task has ended, over the first. *)
Theorem C85_started_before_ended_refuted : exists qs t0 s a e f,
  steps (tstep qs steady) (new_task qs t0) s /\ loop s = Reported a e f /\ f < e.
Proof.
  exists 100, 105, (TimesEx.two 130 30 20 (Some true) Planned Marked (Reported 5 30 20)), 5, 30, 20.
  split; [exact TimesEx.raced|]. split; [reflexivity|lia].
Qed.
Print Assumptions C85_started_before_ended_refuted.

(** The wall clock may be set back while the task runs: then it ends before its plan was set. *)
Theorem C85_clock_set_back_refuted : exists qs t0 s a e f,
  steps (tstep qs (fun _ _ => True)) (new_task qs t0) s /\ loop s = Reported a e f /\ f < a.
Proof.
  set (any := fun _ _ : nat => True).
  exists 100, 105, (TimesEx.one 102 5 2 (Some true) Planned (Reported 5 5 2)), 5, 5, 2.
  split; [|split; [reflexivity|lia]].
  refine (steps_next _ _ _ _ _ (t_load3 100 any (TimesEx.one 102 5 2 (Some true) Planned (Loaded2 5 5)) 5 5 eq_refl)).
  refine (steps_next _ _ _ _ _ (t_load2 100 any (TimesEx.one 102 5 2 (Some true) Planned (Loaded1 5)) 5 eq_refl)).
  refine (steps_next _ _ _ _ _ (t_load1 100 any (TimesEx.one 102 5 2 (Some true) Planned End_marked) eq_refl)).
  refine (steps_next _ _ _ _ _ (t_end_mark 100 any (TimesEx.one 102 5 0 (Some true) Planned (End_read 2)) 2 eq_refl)).
  refine (steps_next _ _ _ _ _ (t_end_read 100 any (TimesEx.one 102 5 0 (Some true) Planned Has_plan) eq_refl)).
  refine (steps_next _ _ _ _ _ (t_end 100 any (TimesEx.one 102 5 0 (Some true) Planned Listening) eq_refl)).
  refine (steps_next _ _ _ _ _ (t_clock 100 any (TimesEx.one 105 5 0 (Some true) Planned Listening) 102 Logic.I)).
  refine (steps_next _ _ _ _ _ (t_plan 100 any (TimesEx.one 105 5 0 None Marked Listening) 0 true eq_refl)).
  refine (steps_next _ _ _ _ _ (t_mark 100 any (TimesEx.one 105 0 0 None (Has_read 5) Listening) 0 5 eq_refl)).
  refine (steps_next _ _ _ _ _ (t_read 100 any (TimesEx.one 105 0 0 None Found_none Listening) 0 eq_refl)).
  refine (steps_next _ _ _ _ _ (t_check 100 any (TimesEx.one 105 0 0 None Arrived Listening) 0 eq_refl)).
  exact (steps_next _ _ _ _ (steps_refl _ _) (t_request 100 any (new_task 100 105))).
Qed.
Print Assumptions C85_clock_set_back_refuted.
