(** Proofs for C85. *)
From Verif Require Import Base CiuModel TimesModel TimesSpec.
From Coq Require Import Lia.

Lemma in_upd {A} (l : list A) i v x : In x (upd l i v) -> x = v \/ In x l.
Proof.
  revert i. induction l as [|y l IH]; intros [|i]; cbn; try tauto.
  - intros [<-|H]; auto.
  - intros [<-|H]; auto. destruct (IH i H); auto.
Qed.

Section Times.
Variables qs t0 : nat.

(** A time between the start of the task and now. *)
Definition true_time (now v : nat) : Prop := exists t, t0 <= t <= now /\ v = t - qs.
Definition true_value (now v : nat) : Prop := exists t, t0 <= t <= now /\ v = since qs t.

Lemma true_time_later now now' v : now <= now' -> true_time now v -> true_time now' v.
Proof. intros H (t & Ht & ->). exists t. split; [lia|reflexivity]. Qed.
Lemma true_value_later now now' v : now <= now' -> true_value now v -> true_value now' v.
Proof. intros H (t & Ht & ->). exists t. split; [lia|reflexivity]. Qed.
Lemma add_true now v m : (v = 0 \/ true_value now v) -> true_time now m -> true_value now (add_nanos v m).
Proof.
  unfold add_nanos. intros Hv (t & Ht & ->). destruct Hv as [->|(t' & Ht' & ->)].
  - exists t. split; [exact Ht|]. unfold since. lia.
  - destruct (Nat.le_gt_cases t t').
    + exists t'. split; [exact Ht'|]. unfold since. lia.
    + exists t. split; [exact Ht|]. unfold since. lia.
Qed.

Record fine (s : task) : Prop := {
  f_clock : t0 <= clock s;
  f_added : added s = since qs t0;
  f_executed : executed s = 0 \/ true_value (clock s) (executed s);
  f_reading : forall v, In (Has_read v) (requests s) -> true_time (clock s) v;
  f_marked : In Marked (requests s) -> executed s <> 0;
  f_final : final s <> None -> executed s <> 0;
  f_finished : finished s = 0 \/ true_value (clock s) (finished s);
  f_loop : match loop s with
    | Listening | Nothing => True
    | Has_plan => final s <> None
    | End_read t => final s <> None /\ true_time (clock s) t
    | End_marked => final s <> None /\ finished s <> 0
    | Loaded1 a => final s <> None /\ finished s <> 0 /\ a = added s
    | Loaded2 a e => finished s <> 0 /\ a = added s /\ true_value (clock s) e
    | Reported a e f => a = added s /\ true_value (clock s) e /\ true_value (clock s) f
    end
}.

Lemma fine_step s s' : fine s -> tstep qs steady s s' -> fine s'.
Proof.
  intros [C A E R M F G L] H. inversion H; subst; clear H; constructor; cbn [clock added executed finished final requests loop] in *;
    auto.
  - unfold steady in *; lia.
  - destruct E; [auto|right]. eapply true_value_later; eauto.
  - intros v Hv. eapply true_time_later; [|exact (R v Hv)]. exact H0.
  - destruct G; [auto|right]. eapply true_value_later; eauto.
  - unfold steady in H0. destruct (loop s); intuition eauto using true_time_later, true_value_later.
  - intros v Hv. apply in_app_or in Hv as [Hv|[Hv|[]]]; [auto|discriminate].
  - intros Hv. apply in_app_or in Hv as [Hv|[Hv|[]]]; [auto|discriminate].
  - intros v Hv. apply in_upd in Hv as [Hv|Hv]; [|auto]. destruct (executed s =? 0); discriminate.
  - intros Hv. apply in_upd in Hv as [Hv|Hv]; [|auto]. destruct (executed s =? 0) eqn:Z; [discriminate|].
    now apply Nat.eqb_neq.
  - intros v Hv. apply in_upd in Hv as [Hv|Hv]; [|auto]. injection Hv as ->. exists (clock s). split; [lia|reflexivity].
  - intros Hv. apply in_upd in Hv as [Hv|Hv]; [discriminate|auto].
  - right. apply add_true; [exact E|]. apply R. eapply nth_error_In; eauto.
  - intros v Hv. apply in_upd in Hv as [Hv|Hv]; [discriminate|auto].
  - intros _. unfold add_nanos. lia.
  - intros _. unfold add_nanos. lia.
  - intros v Hv. apply in_upd in Hv as [Hv|Hv]; [discriminate|auto].
  - intros Hv. apply in_upd in Hv as [Hv|Hv]; [discriminate|auto].
  - intros _. apply M. eapply nth_error_In; eauto.
  - destruct (loop s); auto; destruct (final s); intuition discriminate.
  - destruct (final s) as [[]|]; auto. discriminate.
  - rewrite H0 in L. split; [exact L|]. exists (clock s). split; [lia|reflexivity].
  - right. rewrite H0 in L. apply add_true; [exact G|apply L].
  - rewrite H0 in L. split; [apply L|unfold add_nanos; lia].
  - rewrite H0 in L. intuition.
  - rewrite H0 in L. destruct L as (L1 & L2 & L3). specialize (F L1). intuition.
  - rewrite H0 in L. destruct L as (L1 & L2 & L3). intuition.
Qed.

Lemma fine_new : fine (new_task qs t0).
Proof.
  constructor; cbn [clock added executed finished final requests loop new_task In]; auto; try tauto; try lia; try discriminate.
Qed.
Lemma reachable_fine s : steps (tstep qs steady) (new_task qs t0) s -> fine s.
Proof. intros H. refine (steps_invariant (tstep qs steady) fine _ _ fine_new _ H). intros a b; apply fine_step. Qed.

(** After a plan was found without a race, the time of execution stays. *)
Definition settled (lim : nat) (e : nat) (s : task) : Prop :=
  fine s /\ no_race s /\ e <> 0 /\ executed s = e /\ lim <= clock s - qs /\ e <= Nat.max lim 1 /\
  match loop s with
  | Listening | Nothing | Has_plan => finished s = 0 \/ e <= finished s
  | End_read t => e <= Nat.max t 1
  | End_marked | Loaded1 _ => e <= finished s
  | Loaded2 _ e' => e <= finished s /\ e' = e
  | Reported _ e' f => e' = e /\ e <= f
  end.
Lemma no_race_upd s i r : no_race s -> r <> Found_none -> (forall t, r <> Has_read t) ->
  forall x, In x (upd (requests s) i r) -> x <> Found_none /\ forall t, x <> Has_read t.
Proof. intros H H1 H2 x Hx. apply in_upd in Hx as [->|Hx]; auto. Qed.
Lemma settled_step lim e s s' : settled lim e s -> tstep qs steady s s' -> settled lim e s'.
Proof.
  intros (I & N & Hz & He & Hl & Hm & L) H. pose proof (fine_step s s' I H) as I'. split; [exact I'|]. clear I'.
  inversion H; subst; clear H; unfold no_race; cbn [clock added executed finished final requests loop] in *.
  - unfold steady in H0. intuition lia.
  - split; [|intuition]. intros r Hr. apply in_app_or in Hr as [Hr|[<-|[]]]; [auto|split; [discriminate|discriminate]].
  - split; [|intuition]. destruct (executed s =? 0) eqn:Z; [apply Nat.eqb_eq in Z; contradiction|].
    apply no_race_upd; [exact N|discriminate|discriminate].
  - exfalso. apply nth_error_In in H0. destruct (N _ H0). contradiction.
  - exfalso. apply nth_error_In in H0. destruct (N _ H0). eapply H1; reflexivity.
  - split; [|intuition]. apply no_race_upd; [exact N|discriminate|discriminate].
  - split; [exact N|]. rewrite H0 in L. destruct (final s) as [[]|]; intuition.
  - split; [exact N|]. rewrite H0 in L. intuition; lia.
  - split; [exact N|]. rewrite H0 in L. intuition; unfold add_nanos; lia.
  - split; [exact N|]. rewrite H0 in L. intuition.
  - split; [exact N|]. rewrite H0 in L. intuition.
  - split; [exact N|]. rewrite H0 in L. intuition.
Qed.
Lemma settled_steps lim e s s' : settled lim e s -> steps (tstep qs steady) s s' -> settled lim e s'.
Proof. intros Hs H. refine (steps_invariant (tstep qs steady) (settled lim e) _ _ Hs _ H). intros a b; apply settled_step. Qed.
End Times.
