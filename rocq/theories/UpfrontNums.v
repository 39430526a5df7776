(** Proofs of C105: the order of the numbers of the stages that are sent. *)
From Verif Require Import Base NetModel CiuModel EventsModel JoinModel PlannerModel PlannerSpec PlannerProofs
  StagewiseModel StagewiseSpec StagewiseProofs UpfrontModel UpfrontSpec UpfrontProofs.
Open Scope nat_scope.

Lemma same_front {A} : forall a b c d : list A, a ++ b = c ++ d -> List.length a = List.length c -> a = c.
Proof.
  induction a as [|x a IH]; intros b [|y c] d E L; cbn in *; try discriminate; [reflexivity|].
  injection E as -> E. injection L as L. f_equal. eapply IH; eassumption.
Qed.

Section Nums.
Context {row : Type}.
Notation tree := (tree row).
Variable routed : list nat -> Res unit.
Variable sent : list nat -> nat -> Res unit.
Notation in_turn := (UpfrontModel.in_turn).
Notation send_static := (send_static (row := row) routed sent).

(** The stages sent are the first ones of [all], and all of them if nothing failed. *)
Definition starts (all : list nat) (x : list event * Res unit) : Prop :=
  exists rest, all = numbers (fst x) ++ rest /\ (snd x = Ok tt -> rest = []).

Lemma numbers_app l m : numbers (l ++ m) = numbers l ++ numbers m.
Proof. unfold numbers. apply flat_map_app. Qed.

Lemma starts_then a1 a2 x y : starts a1 x -> starts a2 y -> starts (a1 ++ a2) (in_turn [x; y]).
Proof.
  destruct x as [l1 r1], y as [l2 r2]. intros (s1 & E1 & O1) (s2 & E2 & O2). cbn [fst snd] in *.
  destruct r1 as [[]|m|m]; cbn.
  - rewrite (O1 eq_refl), app_nil_r in E1. subst a1.
    destruct r2 as [[]|m|m]; cbn; (exists s2; cbn [fst snd]; split; [|first [exact O2|discriminate]]);
      rewrite ?app_nil_r, numbers_app, <- app_assoc, <- E2; reflexivity.
  - exists (s1 ++ a2). cbn [fst snd]. split; [rewrite app_assoc, <- E1; reflexivity|discriminate].
  - exists (s1 ++ a2). cbn [fst snd]. split; [rewrite app_assoc, <- E1; reflexivity|discriminate].
Qed.

Lemma tasks_no_number at_ num : forall n i, numbers (fst (send_tasks sent at_ num i n)) = [].
Proof.
  induction n as [|n IH]; intros i; cbn; [reflexivity|].
  destruct (sent at_ i) as [[]|m|m]; [|reflexivity|reflexivity].
  specialize (IH (S i)). destruct (send_tasks sent at_ num (S i) n) as [evs r]. cbn in *. exact IH.
Qed.

Lemma stage_starts at_ num b ts : starts [num] (send_stage routed sent at_ num b ts).
Proof.
  unfold send_stage. destruct (routed at_) as [u|m|m].
  - pose proof (tasks_no_number at_ num ts 0) as E. destruct (send_tasks sent at_ num 0 ts) as [evs r]. cbn [fst] in E.
    exists []. split; [|reflexivity]. change (numbers _) with (num :: numbers evs). rewrite E. reflexivity.
  - exists [num]. split; [reflexivity|discriminate].
  - exists [num]. split; [reflexivity|discriminate].
Qed.

Lemma children_start at_ : forall cs k, Forall (fun c : tree => forall a, starts (stage_nums c) (send_static a c)) cs ->
  starts (flat_map stage_nums cs)
    (in_turn (map (fun '(f, i) => f (i :: at_)) (combine (map (fun c a => send_static a c) cs) (seq k (List.length cs))))).
Proof.
  induction cs as [|c cs IH]; intros k H; cbn [map combine seq List.length flat_map].
  - exists []. split; reflexivity.
  - inversion H as [|x y Hc Hcs]; subst. rewrite in_turn_cons. apply starts_then; [apply Hc|apply IH; exact Hcs].
Qed.

Lemma static_starts : forall (t : tree) at_, starts (stage_nums t) (send_static at_ t).
Proof.
  induction t as [k cs IH|w m cs IH|b part qi num ts i IH] using tree_ind'; intros at_; cbn [UpfrontModel.send_static stage_nums].
  - apply children_start. exact IH.
  - apply children_start. exact IH.
  - apply starts_then; [apply IH|apply stage_starts].
Qed.

Lemma numbers_unique log : NoDup (numbers log) -> forall q q' num b b' ts ts',
  In (Routed q num b ts) log -> In (Routed q' num b' ts') log -> q = q'.
Proof.
  induction log as [|e log IH]; intros N q q' num b b' ts ts' A B; [destruct A|].
  assert (K : forall p n c s, In (Routed p n c s) log -> In n (numbers log)).
  { intros p n c s X. unfold numbers. apply in_flat_map. exists (Routed p n c s). split; [exact X|left; reflexivity]. }
  destruct A as [A|A], B as [B|B].
  - congruence.
  - subst e. exfalso. cbn in N. inversion N; subst. eauto.
  - subst e. exfalso. cbn in N. inversion N; subst. eauto.
  - apply (IH) with (num := num) (b := b) (b' := b') (ts := ts) (ts' := ts'); [|assumption|assumption].
    unfold numbers in N. cbn in N. destruct e; cbn in N; [inversion N; assumption|exact N|exact N].
Qed.
End Nums.
