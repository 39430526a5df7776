(** C104: a query whose task counts are chosen while it runs is sent out stage by stage. *)
From Coq Require Import NArith.
From Verif Require Import Base NetModel CiuModel EventsModel JoinModel PlannerModel DynModel PlannerProofs
  DynProps StagewiseModel StagewiseSpec StagewiseProofs StagewiseLive.
Open Scope nat_scope.

Section C104.
Context {row : Type}.
Notation tree := (tree row).
Variable cfg : settings row.
Variable bytes : N.
Variable cost : list nat -> Res (option N).
Variable routed : list nat -> Res unit.
Variable sent : list nat -> nat -> Res unit.
Variable sampled : list nat -> Res unit.
Notation prepares := (prepares cfg bytes cost routed sent sampled).
Notation wstep := (wstep cfg bytes cost routed sent sampled).

(** C104. Whatever happens at a stage, all stages below it were sent in all their tasks before, and were
    sampled before unless they are read by a coalescing boundary. *)
Theorem C104_inputs_first p k log next w : prepares p k log next w ->
  forall before e after, log = before ++ e :: after ->
  forall q b, stage_of p q b -> under q (place e) -> settled before q b.
Proof. intros H. exact (order _ _ _ _ _ _ _ _ _ _ _ H). Qed.

(** Workers are chosen before anything is sent. A stage is sampled after all its tasks were sent, and only
    if it is not read by a coalescing boundary. *)
Theorem C104_route_send_sample p k log next w : prepares p k log next w ->
  forall before e after, log = before ++ e :: after ->
  match e with
  | Routed _ _ _ _ => True
  | Sent q num task => exists b tasks, In (Routed q num b tasks) before /\ task < tasks
  | Sampled q num => exists b tasks, b <> BCoalesce /\ In (Routed q num b tasks) before /\
                       forall task, task < tasks -> In (Sent q num task) before
  end.
Proof. intros H. exact (announced_before _ _ _ _ _ _ _ _ _ _ _ H). Qed.

(** Only stages of the plan are sent, each of them once, each task once, and they are numbered in the
    order of sending. *)
Theorem C104_once p k log next w : prepares p k log next w ->
  (forall q num b tasks, In (Routed q num b tasks) log -> stage_of p q b) /\
  NoDup (places log) /\ NoDup log /\ increasing (numbers log).
Proof.
  intros H. split; [exact (routed_stages _ _ _ _ _ _ _ _ _ _ _ H)|].
  destruct (numbered _ _ _ _ _ _ _ _ _ _ _ H) as (A & _ & _ & B).
  split; [exact B|]. split; [exact (proj1 (prepares_fresh _ _ _ _ _ _ _ _ _ _ _ H))|exact A].
Qed.

(** A preparation that came to its end has sent and sampled every stage, has left out no number, and has
    the plan of DynModel, whatever the timing was. *)
Theorem C104_whole_plan p k log next r : prepares p k log next (Ready r) ->
  (forall q b, stage_of p q b -> settled log q b) /\
  numbers log = seq 1 (List.length (numbers log)) /\
  dynamic_inject cfg bytes (fun a => mkObs (cost a) (Ok tt)) p = Ok r.
Proof.
  intros H. pose proof (prepares_inv _ _ _ _ _ _ _ _ _ _ _ H) as I.
  inversion I as [| |a par t x Hs Hi|]; subst. split; [exact Hs|]. split; [|exact Hi].
  exact (proj1 (no_gaps _ _ _ _ _ _ _ _ _ _ _ H (unbroken_ready r))).
Qed.

(** Every timing comes to an end; before that there is always something to do or to wait for. *)
Theorem C104_ends p : exists most, forall k log next w, prepares p k log next w ->
  k <= most /\
  ((exists r, w = Ready r) \/ (exists why, w = Broken why) \/
   exists evs next' w', prepares p (S k) (log ++ evs) next' w').
Proof.
  exists (3 * nodes p). intros k log next w H. split.
  - pose proof (prepares_weight _ _ _ _ _ _ _ _ _ _ _ H). lia.
  - destruct (goes_on cfg bytes cost routed sent sampled w [] next) as [R|[B|(evs & next' & w' & Hs)]]; auto.
    right. right. exists evs, next', w'. econstructor; eauto.
Qed.

(** If nothing fails, the preparation does not fail under any timing, *)
Theorem C104_succeeds p r :
  (forall a, routed a = Ok tt) -> (forall a i, sent a i = Ok tt) -> (forall a, sampled a = Ok tt) ->
  dynamic_inject cfg bytes (fun a => mkObs (cost a) (Ok tt)) p = Ok r ->
  forall k log next w, prepares p k log next w ->
  exists k' evs next', prepares p k' (log ++ evs) next' (Ready r).
Proof.
  intros Hr Hs Hm J k log next w H.
  destruct (finishes _ _ _ _ _ _ p (weight w) k log next w (le_n _) H) as (k' & evs & next' & w' & H' & [(x & ->)|(why & ->)]).
  - exists k', evs, next'. destruct (C104_whole_plan _ _ _ _ _ H') as (_ & _ & E). rewrite J in E. injection E as <-. exact H'.
  - exfalso. pose proof (prepares_unbroken _ _ _ _ _ _ Hr Hs p r Hm J _ _ _ _ H') as U. inversion U.
Qed.

(** and a stage waits for the sampling of the stages below it only: when those to be sampled were sampled,
    it can be sent without the end of any further sampling. *)
Theorem C104_branches p r :
  (forall a, routed a = Ok tt) -> (forall a i, sent a i = Ok tt) -> (forall a, sampled a = Ok tt) ->
  dynamic_inject cfg bytes (fun a => mkObs (cost a) (Ok tt)) p = Ok r ->
  forall k log next w, prepares p k log next w ->
  forall q b, stage_of p q b ->
  (forall q' b', stage_of p q' b' -> under q' q -> b' <> BCoalesce -> exists num, In (Sampled q' num) log) ->
  (exists num tasks, In (Routed q num b tasks) log) \/
  exists k' evs next' w', prepares p k' (log ++ evs) next' w' /\
    (exists num tasks, In (Routed q num b tasks) evs) /\ (forall q' num, ~ In (Sampled q' num) evs).
Proof.
  intros Hr Hs Hm J k log next w H q b Hq Hbelow.
  destruct (in_dec (list_eq_dec Nat.eq_dec) q (places log)) as [Hin|Hout].
  - left. unfold places in Hin. apply in_flat_map in Hin as (e & He & Hp).
    destruct e as [a num b' tasks| |]; try (destruct Hp; fail). destruct Hp as [<-|[]].
    pose proof (routed_stages _ _ _ _ _ _ _ _ _ _ _ H _ _ _ _ He) as Hq'.
    assert (b' = b) as ->.
    { clear - Hq Hq'. unfold stage_of in *.
      assert (G : forall at_ parent (t : tree) q b, stage_at at_ parent t q b -> forall b', stage_at at_ parent t q b' -> b' = b).
      { clear. intros at_ parent t q b X. induction X as [at_ parent t b E|at_ parent t i c q b Hc X IH]; intros b' Y;
          apply stage_at_inv in Y as [[E1 E2]|(j & c' & Hc' & Y)].
        - exact (ends_stage_one _ _ _ _ E2 E).
        - exfalso. destruct (stage_at_place _ _ _ _ _ Y) as [x E3]. apply (f_equal (@List.length nat)) in E3.
          rewrite app_length in E3. cbn in E3. lia.
        - exfalso. destruct (stage_at_place _ _ _ _ _ X) as [x E3]. subst q. apply (f_equal (@List.length nat)) in E3.
          rewrite app_length in E3. cbn in E3. lia.
        - destruct (stage_at_place _ _ _ _ _ X) as [x E3]. destruct (stage_at_place _ _ _ _ _ Y) as [y E4].
          rewrite E3 in E4. apply suffix_same in E4 as [-> _]. rewrite Hc in Hc'. injection Hc' as <-. auto. }
      exact (G _ _ _ _ _ Hq _ Hq'). }
    eauto.
  - right. destruct (prepares_fresh _ _ _ _ _ _ _ _ _ _ _ H) as [ND F].
    destruct (can_route cfg bytes cost routed sent sampled Hr Hs [] None p q b Hq w log r next
                (prepares_inv _ _ _ _ _ _ _ _ _ _ _ H) F ND
                (prepares_unbroken _ _ _ _ _ _ Hr Hs p r Hm J _ _ _ _ H) J) as (evs & next' & w' & X & Hc & HR).
    + intros n ts He. apply Hout. unfold places. apply in_flat_map. eexists. split; [exact He|]. left. reflexivity.
    + exact Hbelow.
    + destruct (wsteps_prepares _ _ _ _ _ _ p _ _ _ _ _ _ X eq_refl k log H) as [k' H'].
      exists k', evs, next', w'. auto.
Qed.
End C104.
Print Assumptions C104_inputs_first.
Print Assumptions C104_route_send_sample.
Print Assumptions C104_once.
Print Assumptions C104_whole_plan.
Print Assumptions C104_ends.
Print Assumptions C104_succeeds.
Print Assumptions C104_branches.

(** The query of DynProps: a broadcast side and a shuffled side of a join, gathered by a coalescing node. *)
Module StagewiseEx.
Import DynProps.Ex.
Definition plan := Eval vm_compute in base.
Definition done_plan := Eval vm_compute in injected.
Definition costs (a : list nat) : Res (option N) := o_cost (obs a).
Definition fine (_ : list nat) : Res unit := Ok tt.
Definition fine_task (_ : list nat) (_ : nat) : Res unit := Ok tt.
Notation prepares := (prepares dyn 10 costs fine fine_task fine).

(** The positions of the stages, computed. *)
Fixpoint listing {row} (at_ : list nat) (parent : option bool) (t : tree row) : list (list nat) :=
  match t with
  | Node _ cs | Ciu _ _ cs =>
      List.concat (map (fun '(f, i) => f (i :: at_))
        (combine (map (fun c a => listing a (Some (is_coalesce t)) c) cs) (seq 0 (List.length cs))))
  | Net _ _ _ _ _ i => listing (0 :: at_) (Some false) i
  end ++ match stage_kind parent t with Some _ => [at_] | None => [] end.
Lemma listed {row} : forall at_ parent (t : tree row) q b, stage_at at_ parent t q b -> In q (listing at_ parent t).
Proof.
  assert (P : forall (f : tree row -> list nat -> list (list nat)) at_ q cs k i c, nth_error cs i = Some c ->
    In q (f c (k + i :: at_)) ->
    In q (List.concat (map (fun '(g, i) => g (i :: at_)) (combine (map f cs) (seq k (List.length cs)))))).
  { intros f at_ q. induction cs as [|c cs IH]; intros k [|i] x Hx Hq; cbn in Hx; try discriminate; cbn;
      apply in_or_app.
    - injection Hx as ->. left. rewrite Nat.add_0_r in Hq. exact Hq.
    - right. apply (IH (S k) i x Hx). rewrite Nat.add_succ_r in Hq. exact Hq. }
  induction 1 as [at_ parent t b E|at_ parent t i c q b Hc H IH].
  - assert (In at_ match stage_kind parent t with Some _ => [at_] | None => [] end).
    { unfold stage_kind. destruct E as [p u E|p u E|u E B]; rewrite E; try (left; reflexivity).
      - destruct (is_hash_repart u); left; reflexivity.
      - rewrite B. left. reflexivity. }
    destruct t; cbn [listing]; apply in_or_app; right; assumption.
  - destruct t as [k cs|w m cs|b' part qi n ts j]; cbn [listing]; apply in_or_app; left; cbn [children] in Hc.
    + exact (P _ at_ q cs 0 i c Hc IH).
    + exact (P _ at_ q cs 0 i c Hc IH).
    + destruct i as [|i]; cbn in Hc; [injection Hc as <-; exact IH|destruct i; discriminate].
Qed.

Example stages : stage_of plan [0; 0; 0] BBroadcast /\ stage_of plan [0; 1; 0] BShuffle /\ stage_of plan [0] BCoalesce /\
  dynamic_inject dyn 10 (fun a => mkObs (costs a) (Ok tt)) plan = Ok (done_plan, Maximum 1).
Proof.
  split; [|split; [|split; [|vm_compute; reflexivity]]].
  - do 3 (eapply (stage_below _ _ _ 0); [reflexivity|]).
    apply stage_here, at_broadcast. reflexivity.
  - eapply (stage_below _ _ _ 0); [reflexivity|]. eapply (stage_below _ _ _ 1); [reflexivity|]. eapply (stage_below _ _ _ 0); [reflexivity|].
    apply stage_here, at_repartition. reflexivity.
  - eapply (stage_below _ _ _ 0); [reflexivity|]. apply stage_here, at_coalesce; reflexivity.
Qed.

(** A timing in which both sides of the join are running and neither was sampled, *)
Example both_sides : exists k log next w n1 t1 n2 t2, prepares plan k log next w /\
  In (Routed [0; 0; 0] n1 BBroadcast t1) log /\ In (Routed [0; 1; 0] n2 BShuffle t2) log /\
  forall q num, ~ In (Sampled q num) log.
Proof.
  destruct stages as (S1 & S2 & _ & J).
  assert (Hl : forall q b x, stage_of plan q b -> under q (x : list nat) -> List.length x = 3 -> False).
  { intros q b x Hq (y & Hy & E) Hx. apply listed in Hq. subst q.
    assert (Hlen : 4 <= List.length (y ++ x)) by (rewrite app_length; destruct y; [congruence|cbn; lia]).
    change (In (y ++ x) [[0; 0; 0]; [0; 1; 0]; [0]]) in Hq.
    destruct Hq as [Hq|[Hq|[Hq|[]]]]; rewrite <- Hq in Hlen; cbn in Hlen; lia. }
  destruct (C104_branches dyn 10 costs fine fine_task fine plan _ (fun _ => eq_refl) (fun _ _ => eq_refl) (fun _ => eq_refl) J
              0 [] 1 _ (prepares_start _ _ _ _ _ _ plan) [0; 0; 0] BBroadcast S1)
    as [(n & ts & [])|(k & log & next & w & H & (n1 & t1 & R1) & N1)].
  { intros q b Hq Hu. exfalso. exact (Hl _ _ _ Hq Hu eq_refl). }
  cbn [Datatypes.app] in H.
  destruct (C104_branches dyn 10 costs fine fine_task fine plan _ (fun _ => eq_refl) (fun _ _ => eq_refl) (fun _ => eq_refl) J
              k log next w H [0; 1; 0] BShuffle S2)
    as [(n2 & t2 & R2)|(k' & log' & next' & w' & H' & (n2 & t2 & R2) & N2)].
  { intros q b Hq Hu. exfalso. exact (Hl _ _ _ Hq Hu eq_refl). }
  - exists k, log, next, w, n1, t1, n2, t2. auto.
  - exists k', (log ++ log'), next', w', n1, t1, n2, t2. split; [exact H'|].
    split; [apply in_or_app; auto|]. split; [apply in_or_app; auto|].
    intros q num He. apply in_app_or in He as [He|He]; [exact (N1 _ _ He)|exact (N2 _ _ He)].
Qed.

(** and one that comes to its end: the gathered stage is sent after both sides were sampled. *)
Example to_the_end : exists k before num tasks after next, prepares plan k (before ++ Routed [0] num BCoalesce tasks :: after) next
    (Ready (done_plan, Maximum 1)) /\
  settled before [0; 0; 0] BBroadcast /\ settled before [0; 1; 0] BShuffle.
Proof.
  destruct stages as (S1 & S2 & S3 & J).
  destruct (C104_succeeds dyn 10 costs fine fine_task fine plan _ (fun _ => eq_refl) (fun _ _ => eq_refl) (fun _ => eq_refl) J
              0 [] 1 _ (prepares_start _ _ _ _ _ _ plan)) as (k & log & next & H).
  cbn [Datatypes.app] in H.
  destruct (C104_whole_plan _ _ _ _ _ _ _ _ _ _ _ H) as (A & _).
  destruct (A _ _ S3) as [(num & tasks & R & _) _]. apply in_split in R as (before & after & ->).
  exists k, before, num, tasks, after, next. split; [exact H|].
  split; eapply (C104_inputs_first _ _ _ _ _ _ _ _ _ _ _ H _ _ _ eq_refl); eauto.
  - exists [0; 0]. split; [discriminate|reflexivity].
  - exists [0; 1]. split; [discriminate|reflexivity].
Qed.
End StagewiseEx.
