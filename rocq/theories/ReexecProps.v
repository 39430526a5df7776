(** C97: executing one distributed plan again. *)
From Verif Require Import Base CiuModel CiuProofs PoolProofs TaskModel TaskSpec TaskProofs TaskProps ReexecModel ReexecSpec ReexecProofs.

Section C97.
Context {plan head err : Type}.
Variable insert : head -> plan -> plan + err.
Variable planned : list nat.
Variable task_plan : nat -> nat -> plan.
Variable collects : bool.
Notation site := (site plan head err).
Notation reachable dynamic n s := (site_reachable insert dynamic planned task_plan collects n s).

(** * With dynamic task counts *)

(** A run gets the plans that it sent itself, whatever other runs of the plan there were or are. *)
Theorem C97_dynamic_own_plans n (s : site) x u k h e p : reachable true n s ->
  asked s x u k h e (Some (Plan p)) ->
  exists h' e' a, asked s x u k h' e' (Some a) /\ insert h' (task_plan x k) = inl p.
Proof.
  intros Hs (q & w & Hq & Ex & Eu & Hu & Hrq). pose proof (site_ok_reachable _ _ _ _ _ _ _ Hs) as I.
  pose proof (so_reach _ _ _ _ I _ _ Hu) as Hw.
  destruct (C34_plan_of_that_task insert w Hw (as_req q) k h p (ex_intro _ e Hrq)) as (j & base & i' & h' & a & (ej & cj & pj & Hj) & (e' & Ha) & Hins).
  destruct (so_ask _ _ _ _ I _ Hq) as (w1 & rq & H1 & H2 & Hx). rewrite Eu in H1. rewrite Hu in H1. injection H1 as <-.
  rewrite Hrq in H2. injection H2 as <-. cbn in Hx. rewrite Ex in Hx.
  destruct (so_chan _ _ _ _ I _ _ _ _ Hu Hj) as (i & c & Hc & Ecu & Ecc).
  destruct (so_call _ _ _ _ I _ _ _ Hc Ecc) as (w2 & ch & G1 & G2 & Gk & Gb). rewrite Ecu, Hu in G1. injection G1 as <-.
  rewrite Hj in G2. injection G2 as <-. cbn in Gk, Gb.
  pose proof (so_run _ _ _ _ I _ _ Hc) as Hrun. rewrite <- Gk in Hrun. pose proof (so_fresh _ _ _ _ I eq_refl _ _ _ Hx Hrun) as Exr.
  destruct Gb as [Gb|[e0 Gb]]; [|discriminate]. injection Gb as ->. rewrite <- Exr, <- Gk in Hins.
  destruct (so_req _ _ _ _ I _ _ _ _ Hu Ha) as (q' & Hq' & Eu' & Er').
  destruct (so_ask _ _ _ _ I _ Hq') as (w3 & rq3 & K1 & K2 & Hx'). rewrite Eu', Hu in K1. injection K1 as <-. rewrite Er', Ha in K2. injection K2 as <-.
  cbn in Hx'. pose proof (so_fresh _ _ _ _ I eq_refl _ _ _ Hx Hx') as Ex'.
  exists h', e', a. split; [|assumption]. exists q', w. rewrite Er'. auto.
Qed.

(** No run's plan is ever refused because of another run. *)
Theorem C97_dynamic_never_refused n (s : site) x u k j : reachable true n s -> ~ plan_at s x u k j Rejected.
Proof.
  intros Hs (c & w & ch & Hc & Ex & Ek & Eu & Ej & Hu & Hj & Hp). pose proof (site_ok_reachable _ _ _ _ _ _ _ Hs) as I.
  destruct (refused insert w j ch (so_reach _ _ _ _ I _ _ Hu) Hj Hp) as (j' & ch' & Hj' & Hd & _ & Hk & _).
  destruct (In_nth_error _ _ Hc) as [i Hi]. destruct (so_chan _ _ _ _ I _ _ _ _ Hu Hj') as (i' & c' & Hi' & Eu' & Ej').
  destruct (so_call _ _ _ _ I _ _ _ Hi Ej) as (w1 & c1 & G1 & G2 & Gk & _). rewrite Eu, Hu in G1. injection G1 as <-. rewrite Hj in G2. injection G2 as <-.
  destruct (so_call _ _ _ _ I _ _ _ Hi' Ej') as (w2 & c2 & K1 & K2 & Kk & _). rewrite Eu', Hu in K1. injection K1 as <-. rewrite Hj' in K2. injection K2 as <-.
  pose proof (so_run _ _ _ _ I _ _ Hi) as R1. pose proof (so_run _ _ _ _ I _ _ Hi') as R2.
  assert (Ekk : ca_key c' = ca_key c) by congruence. rewrite Ekk in R2. pose proof (so_fresh _ _ _ _ I eq_refl _ _ _ R1 R2) as Er.
  assert (i = i') by (eapply (so_once _ _ _ _ I eq_refl); eauto). subst i'. rewrite Hi in Hi'. injection Hi' as <-. congruence.
Qed.

(** Two runs never share the operators of a task, nor the place where these are kept. *)
Theorem C97_dynamic_own_operators n (s : site) x y u k k' h h' e a a' : reachable true n s ->
  asked s x u k h e a -> asked s y u k' h' e a' -> x = y.
Proof.
  intros Hs (q & w & Hq & <- & Eu & Hu & Hrq) (q' & w' & Hq' & <- & Eu' & Hu' & Hrq'). rewrite Hu in Hu'. injection Hu' as <-.
  pose proof (site_ok_reachable _ _ _ _ _ _ _ Hs) as I.
  destruct (wk_ok_reachable _ _ (so_reach _ _ _ _ I _ _ Hu)) as [keys W].
  destruct (wo_rq _ _ _ W _ _ Hrq) as [K _], (wo_rq _ _ _ W _ _ Hrq') as [K' _]. cbn in K, K'.
  assert (k' = k) by congruence. subst k'.
  destruct (so_ask _ _ _ _ I _ Hq) as (w1 & rq & H1 & H2 & Hx). rewrite Eu, Hu in H1. injection H1 as <-. rewrite Hrq in H2. injection H2 as <-.
  destruct (so_ask _ _ _ _ I _ Hq') as (w2 & rq' & G1 & G2 & Hy). rewrite Eu', Hu in G1. injection G1 as <-. rewrite Hrq' in G2. injection G2 as <-.
  exact (so_fresh _ _ _ _ I eq_refl _ _ _ Hx Hy).
Qed.

(** The metrics shown for a task of a run are that run's. *)
Theorem C97_dynamic_own_metrics n (s : site) x k y : reachable true n s -> task_of s x k -> stored s k = Some y -> y = x.
Proof.
  intros Hs Hx Hst. pose proof (site_ok_reachable _ _ _ _ _ _ _ Hs) as I. unfold stored in Hst.
  destruct (find _ _) as [[a b]|] eqn:E; [|discriminate]. injection Hst as <-. apply find_some_key in E. cbn in E. destruct E as [Hin ->].
  exact (so_fresh _ _ _ _ I eq_refl _ _ _ (so_metrics _ _ _ _ I _ _ Hin) Hx).
Qed.

(** * Without *)

(** Also then a run gets no other plan than one sent for that very task, by itself or by another run; as all runs send the same
    plan for a task, it is the right one. *)
Theorem C97_static_right_plans n (s : site) x u k h e p :
  (forall y z, task_plan y k = task_plan z k) -> reachable false n s ->
  asked s x u k h e (Some (Plan p)) -> exists h', insert h' (task_plan x k) = inl p.
Proof.
  intros Hsame Hs (q & w & Hq & Ex & Eu & Hu & Hrq). pose proof (site_ok_reachable _ _ _ _ _ _ _ Hs) as I.
  destruct (C34_plan_of_that_task insert w (so_reach _ _ _ _ I _ _ Hu) (as_req q) k h p (ex_intro _ e Hrq)) as (j & base & i' & h' & a & (ej & cj & pj & Hj) & _ & Hins).
  destruct (so_chan _ _ _ _ I _ _ _ _ Hu Hj) as (i & c & Hc & Ecu & Ecc).
  destruct (so_call _ _ _ _ I _ _ _ Hc Ecc) as (w2 & ch & G1 & G2 & Gk & Gb). rewrite Ecu, Hu in G1. injection G1 as <-.
  rewrite Hj in G2. injection G2 as <-. cbn in Gk, Gb. destruct Gb as [Gb|[e0 Gb]]; [|discriminate]. injection Gb as ->.
  exists h'. rewrite (Hsame x (ca_run c)), Gk. exact Hins.
Qed.

(** Once the workers have cleaned up after the earlier runs, another run is taken as the first was: its plans are not refused,
    unless yet another run's plans arrive meanwhile. *)
Theorem C97_again_after_cleanup n (s s1 s2 : site) dynamic i c w build ch w2 : reachable dynamic n s ->
  (* the plan of a run arrives at a worker that has cleaned up the task, *)
  nth_error (si_calls s) i = Some c -> ca_chan c = None -> nth_error (si_workers s) (ca_url c) = Some w -> cleaned s (ca_url c) (ca_key c) ->
  s1 = mkSite (upd (si_workers s) (ca_url c) (take_plan collects w (ca_key c) build)) (si_runs s)
      (upd (si_calls s) i (mkCall (ca_run c) (ca_key c) (ca_url c) (Some (List.length (wk_channels w))) (ca_done c))) (si_asks s) (si_metrics s) ->
  (* and whatever happens then, except that further plans for the task arrive *)
  steps (site_step insert dynamic planned task_plan collects) s1 s2 -> nth_error (si_workers s2) (ca_url c) = Some w2 ->
  (forall j ch', nth_error (wk_channels w2) j = Some ch' -> ch_key ch' = ca_key c -> j <= List.length (wk_channels w)) ->
  nth_error (wk_channels w2) (List.length (wk_channels w)) = Some ch -> ch_phase ch <> Rejected.
Proof.
  intros Hs Hi Hc Hu Hcl -> Hst Hu2 Hlast Hch.
  pose proof (so_reach _ _ _ _ (site_ok_reachable _ _ _ _ _ _ _ Hs) _ _ Hu) as Hw.
  destruct (site_worker insert dynamic planned task_plan collects _ _ (ca_url c) (take_plan collects w (ca_key c) build) Hst) as (w3 & H3 & H4).
  { eapply upd_nth_same; eauto. }
  rewrite Hu2 in H3. injection H3 as <-.
  eapply fresh_not_refused; eauto.
Qed.
End C97.

(** * What fails without dynamic task counts *)

Ltac go H := eapply steps_trans; [apply steps_one; H|cbn].
Ltac listening :=
  let j := fresh in let ch := fresh in let H := fresh in let Hl := fresh in let Hn := fresh in
  intros j ch H Hl Hn; cbn in H |- *;
  repeat (lazymatch type of H with nth_error [] _ = _ => fail | _ => idtac end; destruct j as [|j]; cbn in H |- *;
    [first [exact H | injection H as <-; discriminate |
      exfalso; apply Hn; unfold stream_over; cbn;
      first [ eexists; eexists; split; [left; reflexivity|]; cbn; now auto
            | eexists; eexists; split; [right; left; reflexivity|]; cbn; now auto]]|]); now destruct j.
Ltac worker_does t := go ltac:(eapply (work _ _ _ _ _ _ 0); [reflexivity | t | reflexivity | reflexivity | listening]).
Ltac run_starts := go ltac:(apply (start_run _ _ _ _ _ _ [5] [0]); [reflexivity|reflexivity|intros ? [<-|[]]; cbn; lia]).
Ltac plan_arrives i b := go ltac:(eapply (arrive _ _ _ _ _ _ i _ _ b); [reflexivity|reflexivity|reflexivity|eauto]).
Ltac asks c h := go ltac:(eapply (request _ _ _ _ _ _ c _ h); [cbn; auto|reflexivity]).
Ltac ends x := go ltac:(eapply (rows_over _ _ _ _ _ _ x); reflexivity).
Ltac hears i := go ltac:(eapply (hear _ _ _ _ _ _ i); reflexivity).
Ltac all_done := let c := fresh in let H := fresh in intros c H; cbn in H;
  repeat (destruct H as [<-|H]; [cbn; discriminate|]); destruct H.
Ltac returns x := go ltac:(eapply (end_run _ _ _ _ _ _ x); [reflexivity|reflexivity|reflexivity|all_done]).

Section Refuted.
Context {plan head err : Type}.
Variable insert : head -> plan -> plan + err.
Variables (base final : plan) (h : head) (broken : err).
Hypothesis Hins : insert h base = inl final.
Notation site := (site plan head err).
Notation step collects := (site_step insert false [5] (fun _ _ => base) collects).
Notation reachable collects s := (site_reachable insert false [5] (fun _ _ => base) collects 1 s).

(** A second run, started when the caller had all of the first run's result, can be refused by a worker that has not cleaned up
    yet, whether metrics are collected or not. *)
Theorem C97_again_refuted collects : exists s0 s : site,
  reachable collects s0 /\ ended s0 0 true /\ asked s0 0 0 5 h 0 (Some (Plan final)) /\ List.length (si_runs s0) = 1 /\
  steps (step collects) s0 s /\ plan_at s 1 0 5 1 Rejected /\ ended s 1 false.
Proof.
  destruct collects.
  - eexists. eexists. split; [|split; [|split; [|split; [|split; [|split]]]]].
    + unfold site_reachable, site_new. cbn [repeat].
      run_starts. plan_arrives 0 (@inl plan err base). worker_does ltac:(eapply (publish _ _ 0); reflexivity).
      asks (mkCall 0 5 0 (Some 0) None) h. worker_does ltac:(eapply (answer_request _ _ 0); reflexivity).
      rewrite Hins. ends 0. worker_does ltac:(eapply (end_of_stream _ _ 0); reflexivity). hears 0. returns 0. apply steps_refl.
    + eexists. split; reflexivity.
    + eexists. eexists. split; [left; reflexivity|]. repeat split.
    + reflexivity.
    + run_starts. plan_arrives 1 (@inl plan err base). worker_does ltac:(eapply (publish _ _ 1); reflexivity).
      hears 1. ends 1. returns 1. apply steps_refl.
    + do 3 eexists. split; [right; left; reflexivity|]. repeat split.
    + eexists. split; reflexivity.
  - eexists. eexists. split; [|split; [|split; [|split; [|split; [|split]]]]].
    + unfold site_reachable, site_new. cbn [repeat].
      run_starts. plan_arrives 0 (@inl plan err base). worker_does ltac:(eapply (publish _ _ 0); reflexivity).
      asks (mkCall 0 5 0 (Some 0) None) h. worker_does ltac:(eapply (answer_request _ _ 0); reflexivity).
      rewrite Hins. hears 0. ends 0. returns 0. apply steps_refl.
    + eexists. split; reflexivity.
    + eexists. eexists. split; [left; reflexivity|]. repeat split.
    + reflexivity.
    + run_starts. plan_arrives 1 (@inl plan err base). worker_does ltac:(eapply (publish _ _ 1); reflexivity).
      hears 1. ends 1. returns 1. apply steps_refl.
    + do 3 eexists. split; [right; left; reflexivity|]. repeat split.
    + eexists. split; reflexivity.
Qed.

(** After a run whose plan could not be built, nothing is going on any more, and yet a second run is refused although its plan can
    be built. *)
Theorem C97_after_failure_refuted collects : exists (s0 s : site) w,
  reachable collects s0 /\ ended s0 0 false /\ List.length (si_runs s0) = 1 /\ nth_error (si_workers s0) 0 = Some w /\ quiet w 5 /\
  steps (step collects) s0 s /\ plan_at s 1 0 5 1 Rejected /\ ended s 1 false.
Proof.
  eexists. eexists. eexists. split; [|split; [|split; [|split; [|split; [|split; [|split]]]]]].
  - unfold site_reachable, site_new. cbn [repeat].
    run_starts. plan_arrives 0 (@inr plan err broken). worker_does ltac:(eapply (publish _ _ 0); reflexivity).
    hears 0. ends 0. returns 0. apply steps_refl.
  - eexists. split; reflexivity.
  - reflexivity.
  - reflexivity.
  - split; [intros ch [<-|[]]; cbn; auto|intros r []].
  - run_starts. plan_arrives 1 (@inl plan err base). worker_does ltac:(eapply (publish _ _ 1); reflexivity).
    hears 1. ends 1. returns 1. apply steps_refl.
  - do 3 eexists. split; [right; left; reflexivity|]. repeat split.
  - eexists. split; reflexivity.
Qed.

(** Of two runs at the same time, one can get hold of the operators of the other, although its own plan was refused. *)
Theorem C97_together_refuted collects : exists s : site,
  reachable collects s /\ plan_at s 0 0 5 0 Listening /\ plan_at s 1 0 5 1 Rejected /\
  asked s 1 0 5 h 0 (Some (Plan final)) /\ asked s 0 0 5 h 0 (Some (Plan final)).
Proof.
  eexists. split; [|split; [|split; [|split]]].
  - unfold site_reachable, site_new. cbn [repeat].
    run_starts. run_starts. plan_arrives 0 (@inl plan err base). plan_arrives 1 (@inl plan err base).
    worker_does ltac:(eapply (publish _ _ 0); reflexivity). worker_does ltac:(eapply (publish _ _ 1); reflexivity).
    asks (mkCall 1 5 0 (Some 1) None) h. worker_does ltac:(eapply (answer_request _ _ 0); reflexivity).
    asks (mkCall 0 5 0 (Some 0) None) h. worker_does ltac:(eapply (answer_request _ _ 1); reflexivity). rewrite Hins. apply steps_refl.
  - do 3 eexists. split; [left; reflexivity|]. repeat split.
  - do 3 eexists. split; [right; left; reflexivity|]. repeat split.
  - eexists. eexists. split; [left; reflexivity|]. repeat split.
  - eexists. eexists. split; [right; left; reflexivity|]. repeat split.
Qed.

(** After a second run that ended well, waiting for its metrics is over at once, and the metrics there are the first run's. *)
Theorem C97_metrics_refuted : exists s : site,
  reachable true s /\ ended s 0 true /\ ended s 1 true /\ wait_over s 1 = true /\ stored s 5 = Some 0.
Proof.
  eexists. split; [|split; [|split; [|split]]].
  - unfold site_reachable, site_new. cbn [repeat].
    run_starts. plan_arrives 0 (@inl plan err base). worker_does ltac:(eapply (publish _ _ 0); reflexivity).
    asks (mkCall 0 5 0 (Some 0) None) h. worker_does ltac:(eapply (answer_request _ _ 0); reflexivity).
    rewrite Hins. ends 0. worker_does ltac:(eapply (end_of_stream _ _ 0); reflexivity). hears 0. returns 0.
    worker_does ltac:(eapply (invalidate _ _ 0); reflexivity).
    go ltac:(eapply (store _ _ _ _ _ _ (mkCall 0 5 0 (Some 0) (Some true))); [left; reflexivity|reflexivity|reflexivity|reflexivity|reflexivity|discriminate]).
    run_starts. plan_arrives 1 (@inl plan err base). worker_does ltac:(eapply (publish _ _ 1); reflexivity).
    asks (mkCall 1 5 0 (Some 1) None) h. worker_does ltac:(eapply (answer_request _ _ 1); reflexivity). rewrite Hins.
    ends 1. worker_does ltac:(eapply (end_of_stream _ _ 1); reflexivity). hears 1. returns 1. apply steps_refl.
  - eexists. split; reflexivity.
  - eexists. split; reflexivity.
  - reflexivity.
  - reflexivity.
Qed.
End Refuted.

(** Two runs at the same time with dynamic task counts: each gets its own plan and shows its own metrics. *)
Example C97_dynamic_case :
  let insert (h : nat) (p : list nat) : list nat + string := inl (h :: p) in
  exists s, site_reachable insert true [] (fun x k => [x; k]) true 1 s /\ ended s 0 true /\ ended s 1 true /\
    task_of s 0 5 /\ task_of s 1 6 /\
    asked s 0 0 5 7 0 (Some (Plan [7; 0; 5])) /\ asked s 1 0 6 7 1 (Some (Plan [7; 1; 6])) /\
    stored s 5 = Some 0 /\ stored s 6 = Some 1.
Proof.
  intros insert. eexists. split; [|split; [|split; [|split; [|split; [|split; [|split; [|split]]]]]]].
  - unfold site_reachable, site_new. cbn [repeat].
    go ltac:(apply (start_run _ _ _ _ _ _ [5] [0]); [split; [repeat constructor; intros []|intros r k []]|reflexivity|intros ? [<-|[]]; cbn; lia]).
    go ltac:(apply (start_run _ _ _ _ _ _ [6] [0]); [split; [repeat constructor; intros []|intros r k [<-|[]] [<-|[]] [H|[]]; discriminate]|reflexivity|intros ? [<-|[]]; cbn; lia]).
    plan_arrives 0 (@inl (list nat) string [0; 5]). plan_arrives 1 (@inl (list nat) string [1; 6]).
    worker_does ltac:(eapply (publish _ _ 0); reflexivity). worker_does ltac:(eapply (publish _ _ 1); reflexivity).
    asks (mkCall 0 5 0 (Some 0) None) 7. asks (mkCall 1 6 0 (Some 1) None) 7.
    worker_does ltac:(eapply (answer_request _ _ 1); reflexivity). worker_does ltac:(eapply (answer_request _ _ 0); reflexivity).
    ends 0. ends 1. worker_does ltac:(eapply (end_of_stream _ _ 0); reflexivity). worker_does ltac:(eapply (end_of_stream _ _ 1); reflexivity).
    hears 0. hears 1. returns 0. returns 1.
    go ltac:(eapply (store _ _ _ _ _ _ (mkCall 0 5 0 (Some 0) (Some true))); [left; reflexivity|reflexivity|reflexivity|reflexivity|reflexivity|discriminate]).
    go ltac:(eapply (store _ _ _ _ _ _ (mkCall 1 6 0 (Some 1) (Some true))); [right; left; reflexivity|reflexivity|reflexivity|reflexivity|reflexivity|discriminate]).
    apply steps_refl.
  - eexists. split; reflexivity.
  - eexists. split; reflexivity.
  - eexists. split; [reflexivity|now left].
  - eexists. split; [reflexivity|now left].
  - eexists. eexists. split; [left; reflexivity|]. repeat split.
  - eexists. eexists. split; [right; left; reflexivity|]. repeat split.
  - reflexivity.
  - reflexivity.
Qed.

(** A state in which [C97_again_after_cleanup] applies: the first run has ended well and its worker has cleaned up; the second
    run's plan is about to arrive. *)
Example C97_cleanup_case :
  let insert (h : nat) (p : list nat) : list nat + string := inl (h :: p) in
  exists s c w, site_reachable insert false [5] (fun _ k => [k]) false 1 s /\ ended s 0 true /\
    nth_error (si_calls s) 1 = Some c /\ ca_chan c = None /\ ca_run c = 1 /\ nth_error (si_workers s) (ca_url c) = Some w /\
    cleaned s (ca_url c) (ca_key c) /\ asked s 0 0 5 7 0 (Some (Plan [7; 5])).
Proof.
  intros insert. eexists. eexists. eexists. split; [|split; [|split; [|split; [|split; [|split; [|split]]]]]].
  - unfold site_reachable, site_new. cbn [repeat].
    run_starts. plan_arrives 0 (@inl (list nat) string [5]). worker_does ltac:(eapply (publish _ _ 0); reflexivity).
    asks (mkCall 0 5 0 (Some 0) None) 7. worker_does ltac:(eapply (answer_request _ _ 0); reflexivity).
    hears 0. ends 0. returns 0. worker_does ltac:(eapply (end_of_stream _ _ 0); reflexivity).
    worker_does ltac:(eapply (invalidate _ _ 0); reflexivity). run_starts. apply steps_refl.
  - eexists. split; reflexivity.
  - reflexivity.
  - reflexivity.
  - reflexivity.
  - reflexivity.
  - intros w j ch H. cbn in H. injection H as <-. intros Hj _. destruct j as [|j]; [|destruct j; discriminate].
    cbn in Hj. injection Hj as <-. right. eexists. reflexivity.
  - eexists. eexists. split; [left; reflexivity|]. repeat split.
Qed.

Print Assumptions C97_dynamic_own_plans.
Print Assumptions C97_dynamic_never_refused.
Print Assumptions C97_dynamic_own_operators.
Print Assumptions C97_dynamic_own_metrics.
Print Assumptions C97_static_right_plans.
Print Assumptions C97_again_after_cleanup.
Print Assumptions C97_again_refuted.
Print Assumptions C97_after_failure_refuted.
Print Assumptions C97_together_refuted.
Print Assumptions C97_metrics_refuted.
