(** Proofs about the order of sending. *)
From Coq Require Import NArith.
From Verif Require Import Base NetModel CiuModel EventsModel JoinModel PlannerModel DynModel PlannerProofs
  StagewiseModel StagewiseSpec.
Open Scope nat_scope.

Section Proofs.
Context {row : Type}.
Notation tree := (tree row).
Variable cfg : settings row.
Variable bytes : N.
Variable cost : list nat -> Res (option N).
Variable routed : list nat -> Res unit.
Variable sent : list nat -> nat -> Res unit.
Variable sampled : list nat -> Res unit.

Notation wstep := (wstep cfg bytes cost routed sent sampled).
Notation resume := (resume cfg bytes cost routed sent).
Notation prepares := (prepares cfg bytes cost routed sent sampled).
Notation open_stage := (open_stage cfg bytes cost routed sent).
Notation sized := (sized cfg bytes cost).
Notation walk := (@walk row).

(** The plan that comes out when nothing fails. *)
Definition inj (at_ : list nat) (parent : option bool) (t : tree) : Res (tree * annotation) :=
  inject_by cfg (propagate_remote cfg)
    (fun a => dynamic_boundary cfg bytes (mkObs (cost a) (Ok tt))) at_ parent t.

Lemma seqM_all {A} : forall (l : list (Res A)) rs, List.length l = List.length rs ->
  (forall i x r, nth_error l i = Some x -> nth_error rs i = Some r -> x = Ok r) -> seqM l = Ok rs.
Proof.
  induction l as [|x l IH]; intros [|r rs] Hl H; try discriminate; [reflexivity|].
  cbn. rewrite (H 0 x r eq_refl eq_refl). cbn.
  unfold seqM in IH. rewrite (IH rs); [reflexivity|cbn in Hl; lia|].
  intros i y s Hy Hs. exact (H (S i) y s Hy Hs).
Qed.

Lemma nth_error_positions {A B} (f : A -> list nat -> B) (at_ : list nat) : forall cs k i x,
  nth_error (map (fun '(g, i) => g (i :: at_)) (combine (map f cs) (seq k (List.length cs)))) i = Some x ->
  exists c, nth_error cs i = Some c /\ x = f c (k + i :: at_).
Proof.
  induction cs as [|c cs IH]; intros k [|i] x H; cbn in H; try discriminate.
  - injection H as <-. exists c. rewrite Nat.add_0_r. auto.
  - apply IH in H as (c' & Hc & ->). exists c'. split; [exact Hc|]. f_equal. f_equal. lia.
Qed.

Lemma inj_node at_ parent t rs :
  List.length rs = List.length (children t) ->
  (forall i c r, nth_error (children t) i = Some c -> nth_error rs i = Some r ->
     inj (i :: at_) (Some (is_coalesce t)) c = Ok r) ->
  inj at_ parent t =
  inject_node cfg (propagate_remote cfg) (dynamic_boundary cfg bytes (mkObs (cost at_) (Ok tt))) parent t rs.
Proof.
  intros Hl H.
  assert (E : forall cs, children t = cs ->
    seqM (map (fun '(f, i) => f (i :: at_))
      (combine (map (fun c a => inj a (Some (is_coalesce t)) c) cs) (seq 0 (List.length cs)))) = Ok rs).
  { intros cs E. subst cs. apply seqM_all.
    - rewrite map_length, combine_length, map_length, seq_length, Nat.min_id. auto.
    - intros i x r Hx Hr. apply (nth_error_positions (fun c a => inj a (Some (is_coalesce t)) c)) in Hx as (c & Hc & ->).
      exact (H i c r Hc Hr). }
  unfold inj in *. destruct t as [k cs|w m cs|b part q n ts i]; cbn [inject_by].
  - rewrite (E cs eq_refl). reflexivity.
  - rewrite (E cs eq_refl). reflexivity.
  - cbn [children is_coalesce] in *. specialize (E [i] eq_refl). cbn [List.length map seq combine] in E.
    rewrite E. reflexivity.
Qed.

Lemma rebuild_hash t rs : is_hash_repart (@rebuild row t rs) = is_hash_repart t.
Proof. destruct t as [k cs|w m [|c cs]|b part q n ts i]; try reflexivity. destruct rs as [|[? ?] [|]]; reflexivity. Qed.
Lemma rebuild_bcast t rs : is_bcast (@rebuild row t rs) = is_bcast t.
Proof. destruct t as [k cs|w m [|c cs]|b part q n ts i]; try reflexivity. destruct rs as [|[? ?] [|]]; reflexivity. Qed.

Lemma stage_kind_ends parent t rs b : stage_kind parent (@rebuild row t rs) = Some b -> ends_stage parent t b.
Proof.
  unfold stage_kind. rewrite rebuild_hash, rebuild_bcast.
  destruct (is_hash_repart t) eqn:H; [intros E; injection E as <-; constructor; exact H|].
  destruct (is_bcast t) eqn:B; [intros E; injection E as <-; constructor; exact B|].
  destruct parent as [[]|]; intros E; try discriminate. injection E as <-. constructor; auto.
Qed.
Lemma stage_kind_none parent t rs b : stage_kind parent (@rebuild row t rs) = None -> ~ ends_stage parent t b.
Proof.
  unfold stage_kind. rewrite rebuild_hash, rebuild_bcast. intros E H.
  destruct H as [p u H|p u H|u H B]; rewrite H in E; try discriminate;
    try (destruct (is_hash_repart u); discriminate).
  rewrite B in E. discriminate.
Qed.
Lemma ends_stage_one parent (t : tree) b b' : ends_stage parent t b -> ends_stage parent t b' -> b = b'.
Proof.
  assert (X : forall u : tree, is_hash_repart u = true -> is_bcast u = true -> False).
  { intros [[]| |]; cbn; intros; try discriminate. }
  intros H H'. destruct H as [p u H|p u H|u H B]; inversion H'; subst; auto; try congruence; exfalso; eauto.
Qed.

(** *** Sending *)

Lemma send_tasks_evs at_ num : forall n i evs r, send_tasks sent at_ num i n = (evs, r) ->
  (forall e, In e evs -> exists k, i <= k < i + n /\ e = Sent at_ num k) /\ NoDup evs /\
  (r = Ok tt -> forall k, i <= k < i + n -> In (Sent at_ num k) evs).
Proof.
  induction n as [|n IH]; intros i evs r H; cbn in H.
  - injection H as <- <-. repeat split; [intros e []|constructor|intros; lia].
  - destruct (sent at_ i) as [[]|m|m].
    2,3: injection H as <- <-; repeat split; [intros e []|constructor|intros; discriminate].
    destruct (send_tasks sent at_ num (S i) n) as [e' r'] eqn:E. injection H as <- <-.
    destruct (IH (S i) e' r' E) as (A & B & C). repeat split.
    + intros e [<-|He]; [exists i; split; [lia|reflexivity]|].
      destruct (A e He) as (k & Hk & ->). exists k. split; [lia|reflexivity].
    + constructor; [|exact B]. intros X. apply A in X as (k & Hk & E'). injection E'. lia.
    + intros R k Hk. destruct (Nat.eq_dec k i) as [->|Hne]; [left; reflexivity|].
      right. apply C; [exact R|lia].
Qed.

(** What a node does when its children have ended. *)
Lemma resume_cases at_ next parent t rs evs next' w :
  resume at_ next parent t rs = (evs, next', w) ->
  (exists why, evs = [] /\ w = Broken why /\ next <= next') \/
  (evs = [] /\ next' = next /\ (forall b, ~ ends_stage parent t b) /\
     exists r, w = Ready r /\
     inject_node cfg (propagate_remote cfg) (dynamic_boundary cfg bytes (mkObs (cost at_) (Ok tt)))
       parent t rs = Ok r) \/
  (exists b tasks sends, ends_stage parent t b /\ evs = Routed at_ next b tasks :: sends /\ next' = S next /\
     (forall e, In e sends -> exists k, k < tasks /\ e = Sent at_ next k) /\ NoDup sends /\
     ((exists why, w = Broken why) \/
      (forall k, k < tasks -> In (Sent at_ next k) sends) /\
      exists plan,
        inject_node cfg (propagate_remote cfg) (dynamic_boundary cfg bytes (mkObs (cost at_) (Ok tt)))
          parent t rs = put_boundary b tasks plan /\
        ((b = BCoalesce /\ exists r, w = Ready r /\ put_boundary b tasks plan = Ok r) \/
         (b <> BCoalesce /\ w = Waiting next tasks b plan)))).
Proof.
  unfold StagewiseModel.resume, inject_node. intros H.
  destruct (desired_task_count cfg t) as [des|m|m]; cbn [bind] in *.
  2,3: left; injection H as <- <- <-; eexists; repeat split; auto.
  destruct (max_tasks cfg) as [most|m|m] eqn:Hmost; cbn [bind] in *.
  2,3: left; injection H as <- <- <-; eexists; repeat split; auto.
  set (count := limit (node_count cfg t des (map snd rs)) most) in *.
  set (t' := rebuild t rs) in *.
  destruct (stage_kind parent t') as [b|] eqn:K.
  - assert (Eb : (if is_hash_repart t' then dynamic_boundary cfg bytes (mkObs (cost at_) (Ok tt)) BShuffle t' count
                  else if is_bcast t' then dynamic_boundary cfg bytes (mkObs (cost at_) (Ok tt)) BBroadcast t' count
                  else match parent with
                       | Some true => dynamic_boundary cfg bytes (mkObs (cost at_) (Ok tt)) BCoalesce t' count
                       | Some false => Ok (t', count)
                       | None => let* t'' := propagate_remote cfg t' (as_usize count) in Ok (t'', count)
                       end) = dynamic_boundary cfg bytes (mkObs (cost at_) (Ok tt)) b t' count).
    { unfold stage_kind in K. destruct (is_hash_repart t'); [injection K as <-; reflexivity|].
      destruct (is_bcast t'); [injection K as <-; reflexivity|].
      destruct parent as [[]|]; try discriminate. injection K as <-. reflexivity. }
    assert (Hend := stage_kind_ends _ _ _ _ K).
    unfold StagewiseModel.open_stage in H.
    assert (Ed : forall tasks plan, sized at_ t' count = Ok (tasks, plan) ->
              dynamic_boundary cfg bytes (mkObs (cost at_) (Ok tt)) b t' count = put_boundary b tasks plan).
    { intros tasks plan Hs. unfold StagewiseModel.sized, dynamic_boundary in *. cbn [o_cost o_started].
      destruct (cost at_); cbn [bind] in *; try discriminate.
      rewrite Hmost in *. cbn [bind] in *.
      destruct (compute_based_task_count _ _ _ _); cbn [bind] in *; try discriminate.
      destruct (propagate_remote _ _ _); cbn [bind] in *; try discriminate.
      injection Hs as <- <-. reflexivity. }
    destruct (sized at_ t' count) as [[tasks plan]|m|m].
    2,3: left; injection H as <- <- <-; eexists; repeat split; auto.
    specialize (Ed tasks plan eq_refl).
    destruct (routed at_) as [u|m|m].
    2,3: left; injection H as <- <- <-; eexists; repeat split; auto.
    destruct (send_tasks sent at_ next 0 tasks) as [sends r] eqn:Es.
    apply send_tasks_evs in Es as (A & B & C). injection H as <- <- <-.
    right. right. exists b, tasks, sends. repeat split; auto.
    + intros e He. destruct (A e He) as (k & Hk & ->). exists k. split; [lia|reflexivity].
    + destruct r as [[]|m|m]; cbn [ended_with]; [|left; eauto|left; eauto].
      destruct b.
      1,2: right; split; [intros k Hk; apply C; [reflexivity|lia]|]; exists plan; rewrite Eb, Ed;
        split; [reflexivity|]; right; split; [discriminate|reflexivity].
      destruct (put_boundary BCoalesce tasks plan) as [r|m|m] eqn:P; cbn [ended_with]; [right|left; eauto|left; eauto].
      split; [intros k Hk; apply C; [reflexivity|lia]|]. exists plan. rewrite Eb, Ed, P. split; [reflexivity|].
      left. split; [reflexivity|]. exists r. auto.
  - assert (Hno : forall b, ~ ends_stage parent t b) by (intros b; exact (stage_kind_none _ _ _ b K)).
    unfold stage_kind in K. destruct (is_hash_repart t'); [discriminate|].
    destruct (is_bcast t'); [discriminate|].
    destruct parent as [[]|]; try discriminate.
    + right. left. injection H as <- <- <-. repeat split; auto. eexists. split; reflexivity.
    + destruct (propagate_remote cfg t' (as_usize count)) as [t2|m|m]; cbn [ended_with bind] in *.
      2,3: left; injection H as <- <- <-; eexists; repeat split; auto.
      right. left. injection H as <- <- <-. repeat split; auto. eexists. split; reflexivity.
Qed.

(** *** What has happened when a future is in a state *)

Definition below_settled (L : list event) (at_ : list nat) (t : tree) : Prop :=
  forall i c q b, nth_error (children t) i = Some c ->
    stage_at (i :: at_) (Some (is_coalesce t)) c q b -> settled L q b.

Inductive inv (L : list event) : list nat -> option bool -> tree -> walk -> Prop :=
| inv_join at_ parent t cs :
    List.length cs = List.length (children t) ->
    (forall i c w, nth_error (children t) i = Some c -> nth_error cs i = Some w ->
       inv L (i :: at_) (Some (is_coalesce t)) c w) ->
    inv L at_ parent t (Join parent t cs)
| inv_wait at_ parent t num tasks b plan :
    ends_stage parent t b -> b <> BCoalesce -> In (Routed at_ num b tasks) L -> (forall i, i < tasks -> In (Sent at_ num i) L) ->
    below_settled L at_ t -> inj at_ parent t = put_boundary b tasks plan ->
    inv L at_ parent t (Waiting num tasks b plan)
| inv_ready at_ parent t r :
    (forall q b, stage_at at_ parent t q b -> settled L q b) -> inj at_ parent t = Ok r ->
    inv L at_ parent t (Ready r)
| inv_broken at_ parent t why : inv L at_ parent t (Broken why).

Lemma all_sent_more L M q b : all_sent L q b -> all_sent (L ++ M) q b.
Proof.
  intros (num & tasks & R & S). exists num, tasks. split; [apply in_or_app; auto|].
  intros i Hi. apply in_or_app. auto.
Qed.
Lemma settled_more L M q b : settled L q b -> settled (L ++ M) q b.
Proof.
  intros [A B]. split; [apply all_sent_more; exact A|].
  intros H. destruct (B H) as (n & Hn). exists n. apply in_or_app. auto.
Qed.
Lemma inv_more L M : forall at_ parent t w, inv L at_ parent t w -> inv (L ++ M) at_ parent t w.
Proof.
  intros at_ parent t w H. induction H as [at_ parent t cs Hl H IH|at_ parent t num tasks b plan He Hnc Hr Hs Hb Hi|at_ parent t r Hs Hi|].
  - constructor; auto.
  - apply inv_wait; auto; [apply in_or_app; auto|intros; apply in_or_app; auto|].
    intros i c q b' Hc Hq. apply settled_more. eapply Hb; eauto.
  - constructor; auto. intros. apply settled_more. auto.
  - constructor.
Qed.

Lemma start_inv L : forall t parent at_, inv L at_ parent t (start parent t).
Proof.
  induction t as [k cs IH|w m cs IH|b part q n ts i IH] using tree_ind'; intros parent at_; cbn [start].
  - constructor; [apply map_length|]. cbn [children]. intros i c w Hc Hw.
    rewrite nth_error_map, Hc in Hw. injection Hw as <-.
    rewrite Forall_forall in IH. apply IH. eapply nth_error_In; eauto.
  - constructor; [apply map_length|]. cbn [children]. intros i c w' Hc Hw.
    rewrite nth_error_map, Hc in Hw. injection Hw as <-.
    rewrite Forall_forall in IH. apply IH. eapply nth_error_In; eauto.
  - constructor; [reflexivity|]. cbn [children]. intros [|j] c w Hc Hw; cbn in Hc, Hw.
    + injection Hc as <-. injection Hw as <-. apply IH.
    + destruct j; discriminate.
Qed.

Lemma ready_children L at_ parent t rs :
  inv L at_ parent t (Join parent t (map Ready rs)) ->
  below_settled L at_ t /\
  inj at_ parent t =
  inject_node cfg (propagate_remote cfg) (dynamic_boundary cfg bytes (mkObs (cost at_) (Ok tt))) parent t rs.
Proof.
  intros H. inversion H as [a p u cs Hl Hc Ea Ep Eu| | |]; subst. rewrite map_length in Hl.
  assert (K : forall i c r, nth_error (children t) i = Some c -> nth_error rs i = Some r ->
            inv L (i :: at_) (Some (is_coalesce t)) c (Ready r)).
  { intros i c r E1 E2. apply (Hc i c); [exact E1|]. rewrite nth_error_map, E2. reflexivity. }
  split.
  - intros i c q b Ec Hq. destruct (nth_error rs i) as [r|] eqn:Er.
    + specialize (K i c r Ec Er). inversion K; subst. auto.
    + apply nth_error_None in Er. assert (nth_error (children t) i <> None) by congruence.
      apply nth_error_Some in H0. lia.
  - apply inj_node; [exact Hl|]. intros i c r E1 E2. specialize (K i c r E1 E2). inversion K; subst. auto.
Qed.

Lemma stage_at_inv at_ parent (t : tree) q b : stage_at at_ parent t q b ->
  (q = at_ /\ ends_stage parent t b) \/
  exists i c, nth_error (children t) i = Some c /\ stage_at (i :: at_) (Some (is_coalesce t)) c q b.
Proof. intros H. destruct H; [left; auto|right; eauto]. Qed.

Lemma settled_here L at_ parent t b' :
  below_settled L at_ t -> ends_stage parent t b' -> settled L at_ b' ->
  forall q b, stage_at at_ parent t q b -> settled L q b.
Proof.
  intros Hb He Hs q b H. apply stage_at_inv in H as [[-> E]|(i & c & Hc & H)].
  - rewrite (ends_stage_one _ _ _ _ E He). exact Hs.
  - eapply Hb; eauto.
Qed.

Lemma nth_error_split_at {A} (l r : list A) x y i z :
  nth_error (l ++ y :: r) i = Some z ->
  (i = List.length l /\ z = y) \/ (i <> List.length l /\ nth_error (l ++ x :: r) i = Some z).
Proof.
  intros H. destruct (Nat.eq_dec i (List.length l)) as [->|Hne].
  - left. rewrite nth_error_app2, Nat.sub_diag in H by lia. injection H as <-. auto.
  - right. split; [exact Hne|]. destruct (Nat.lt_ge_cases i (List.length l)) as [Hlt|Hge].
    + rewrite nth_error_app1 in * by lia. exact H.
    + rewrite nth_error_app2 in * by lia. destruct (i - List.length l) as [|j] eqn:E; [lia|]. exact H.
Qed.

Lemma step_inv : forall at_ next w evs next' w', wstep at_ next w evs next' w' ->
  forall L parent t, inv L at_ parent t w -> inv (L ++ evs) at_ parent t w'.
Proof.
  intros at_ next w evs next' w' H.
  induction H as [at_ next parent t l w r evs next' w' H IH|at_ next parent t l why r
    |at_ next parent t rs evs next' w H|at_ next num tasks b plan Hs|at_ next num tasks b plan why Hs Hn];
    intros L par u I.
  - inversion I as [a p v cs Hl Hc Ea Ep Eu| | |]; subst. constructor.
    + rewrite <- Hl, !app_length. reflexivity.
    + intros i c z E1 E2. apply (nth_error_split_at _ _ w) in E2 as [[-> ->]|[_ E2]].
      * apply IH. apply (Hc _ _ _ E1). rewrite nth_error_app2, Nat.sub_diag by lia. reflexivity.
      * apply inv_more. eauto.
  - constructor.
  - assert (par = parent /\ u = t) as [-> ->] by (inversion I; auto).
    destruct (ready_children _ _ _ _ _ I) as [Hb Hi].
    destruct (resume_cases _ _ _ _ _ _ _ _ H) as
      [(why & -> & -> & _)|[(-> & -> & Hno & x & -> & Hx)|(b & tasks & sends & He & -> & -> & Hsends & Hnd & Hcase)]].
    + constructor.
    + rewrite app_nil_r. constructor; [|congruence].
      intros q b Hq. apply stage_at_inv in Hq as [[_ E]|(i & c & Ec & Hq)]; [exfalso; eapply Hno; eauto|eauto].
    + destruct Hcase as [(why & ->)|(Hall & plan & Hp & Hcase)]; [constructor|].
      assert (S1 : In (Routed at_ next b tasks) (L ++ Routed at_ next b tasks :: sends)).
      { apply in_or_app. right. left. reflexivity. }
      assert (S2 : forall i, i < tasks -> In (Sent at_ next i) (L ++ Routed at_ next b tasks :: sends)).
      { intros i Hi'. apply in_or_app. right. right. auto. }
      assert (S3 : below_settled (L ++ Routed at_ next b tasks :: sends) at_ t).
      { intros i c q b' Ec Hq. apply settled_more. eapply Hb; eauto. }
      destruct Hcase as [(-> & x & -> & Hx)|(Hnc & ->)].
      * constructor; [|congruence]. apply (settled_here _ _ _ _ BCoalesce); auto.
        split; [exists next, tasks; auto|congruence].
      * apply inv_wait; auto. congruence.
  - inversion I as [|a p v n ts b' pl He Hnc Hr Hse Hb Hi| |]; subst.
    destruct (put_boundary b tasks plan) as [x|m|m] eqn:P; cbn [ended_with]; [|constructor|constructor].
    constructor; [|congruence]. apply (settled_here _ _ _ _ b); auto.
    + intros i c q b' Ec Hq. apply settled_more. eapply Hb; eauto.
    + split.
      * apply all_sent_more. exists num, tasks. auto.
      * intros _. exists num. apply in_or_app. right. left. reflexivity.
  - constructor.
Qed.

Lemma prepares_inv p k log next w : prepares p k log next w -> inv log [] None p w.
Proof.
  induction 1 as [|k log next w evs next' w' H IH Hs]; [apply start_inv|]. eapply step_inv; eauto.
Qed.

(** *** Order *)

Lemma suffix_same {A} (x y : list A) i j at_ : x ++ i :: at_ = y ++ j :: at_ -> i = j /\ x = y.
Proof.
  intros H. assert (E : (x ++ [i]) ++ at_ = (y ++ [j]) ++ at_) by (rewrite <- !app_assoc; exact H).
  apply app_inv_tail in E. apply app_inj_tail in E as [-> ->]. auto.
Qed.

Lemma stage_at_place : forall at_ parent (t : tree) q b, stage_at at_ parent t q b -> exists x, q = x ++ at_.
Proof.
  induction 1 as [|at_ parent t i c q b Hc H [x ->]]; [exists []; reflexivity|].
  exists (x ++ [i]). rewrite <- app_assoc. reflexivity.
Qed.

Lemma step_place : forall at_ next w evs next' w', wstep at_ next w evs next' w' ->
  forall e, In e evs -> exists x, place e = x ++ at_.
Proof.
  intros at_ next w evs next' w' H.
  induction H as [at_ next parent t l w r evs next' w' H IH|at_ next parent t l why r
    |at_ next parent t rs evs next' w H|at_ next num tasks b plan Hs|at_ next num tasks b plan why Hs Hn]; intros e He.
  - destruct (IH e He) as [x ->]. exists (x ++ [List.length l]). rewrite <- app_assoc. reflexivity.
  - destruct He.
  - exists []. cbn. destruct (resume_cases _ _ _ _ _ _ _ _ H) as
      [(why & -> & _)|[(-> & _)|(b & tasks & sends & He' & -> & -> & Hsends & _)]]; try (destruct He; fail).
    destruct He as [<-|He]; [reflexivity|]. destruct (Hsends e He) as (k & _ & ->). reflexivity.
  - exists []. destruct He as [<-|[]]. reflexivity.
  - destruct He.
Qed.

Lemma step_order : forall at_ next w evs next' w', wstep at_ next w evs next' w' ->
  forall L parent t, inv L at_ parent t w ->
  forall e, In e evs -> forall q b, stage_at at_ parent t q b -> under q (place e) -> settled L q b.
Proof.
  intros at_ next w evs next' w' H.
  assert (Self : forall at_ parent t e, place e = at_ -> forall L, below_settled L at_ t ->
    forall q b, stage_at at_ parent t q b -> under q (place e) -> settled L q b).
  { intros a par t e E L Hb q b Hq (x & Hx & Eq). apply stage_at_inv in Hq as [[-> _]|(i & c & Ec & Hq)].
    - exfalso. apply (f_equal (@List.length nat)) in Eq. rewrite app_length, E in Eq.
      destruct x; [congruence|cbn in Eq; lia].
    - eapply Hb; eauto. }
  induction H as [at_ next parent t l w r evs next' w' H IH|at_ next parent t l why r
    |at_ next parent t rs evs next' w H|at_ next num tasks b plan Hs|at_ next num tasks b plan why Hs Hn];
    intros L par u I e He q b' Hq Hu.
  - inversion I as [a p v cs Hl Hc Ea Ep Eu| | |]; subst.
    destruct (step_place _ _ _ _ _ _ H e He) as [y Ey].
    apply stage_at_inv in Hq as [[-> _]|(i & c & Ec & Hq)].
    + exfalso. destruct Hu as (x & Hx & Eq). rewrite Ey in Eq. apply (f_equal (@List.length nat)) in Eq.
      rewrite !app_length in Eq. cbn in Eq. lia.
    + assert (i = List.length l) as ->.
      { destruct (stage_at_place _ _ _ _ _ Hq) as [z Ez]. destruct Hu as (x & Hx & Eq).
        rewrite Ez, Ey, app_assoc in Eq. apply suffix_same in Eq as [-> _]. reflexivity. }
      eapply IH; eauto. apply (Hc _ _ _ Ec). rewrite nth_error_app2, Nat.sub_diag by lia. reflexivity.
  - destruct He.
  - assert (par = parent /\ u = t) as [-> ->] by (inversion I; auto).
    destruct (ready_children _ _ _ _ _ I) as [Hb _].
    refine (Self at_ parent t e _ L Hb q b' Hq Hu).
    destruct (resume_cases _ _ _ _ _ _ _ _ H) as
      [(why & -> & _)|[(-> & _)|(b & tasks & sends & He' & -> & -> & Hsends & _)]]; try (destruct He; fail).
    destruct He as [<-|He]; [reflexivity|]. destruct (Hsends e He) as (k & _ & ->). reflexivity.
  - inversion I as [|a p v n ts b2 pl He2 Hnc Hr Hse Hb Hi| |]; subst.
    destruct He as [<-|[]]. exact (Self at_ par u (Sampled at_ num) eq_refl L Hb q b' Hq Hu).
  - destruct He.
Qed.

Lemma app_middle {A} : forall (l m : list A) l1 e l2, l ++ m = l1 ++ e :: l2 ->
  (exists l3, l = l1 ++ e :: l3) \/ (exists m1 m2, m = m1 ++ e :: m2 /\ l1 = l ++ m1).
Proof.
  induction l as [|x l IH]; intros m l1 e l2 H.
  - right. exists l1, l2. auto.
  - destruct l1 as [|y l1]; cbn in H; injection H as -> H.
    + left. exists l. reflexivity.
    + destruct (IH m l1 e l2 H) as [(l3 & ->)|(m1 & m2 & -> & ->)]; [left; exists l3; reflexivity|right; exists m1, m2; auto].
Qed.

Theorem order p k log next w : prepares p k log next w ->
  forall l1 e l2, log = l1 ++ e :: l2 ->
  forall q b, stage_of p q b -> under q (place e) -> settled l1 q b.
Proof.
  induction 1 as [|k log next w evs next' w' H IH Hs]; intros l1 e l2 E q b Hq Hu.
  - destruct l1; discriminate.
  - apply app_middle in E as [(l3 & ->)|(m1 & m2 & -> & ->)]; [eapply IH; eauto|].
    apply settled_more. eapply (step_order _ _ _ _ _ _ Hs log None p (prepares_inv _ _ _ _ _ H) e); eauto.
    apply in_or_app. right. left. reflexivity.
Qed.

(** *** Once *)

Lemma step_stage : forall at_ next w evs next' w', wstep at_ next w evs next' w' ->
  forall L parent t, inv L at_ parent t w ->
  forall q num b tasks, In (Routed q num b tasks) evs -> stage_at at_ parent t q b.
Proof.
  intros at_ next w evs next' w' H.
  induction H as [at_ next parent t l w r evs next' w' H IH|at_ next parent t l why r
    |at_ next parent t rs evs next' w H|at_ next num tasks b plan Hs|at_ next num tasks b plan why Hs Hn];
    intros L par u I q n b' ts He.
  - inversion I as [a p v cs Hl Hc Ea Ep Eu| | |]; subst.
    assert (exists c, nth_error (children t) (List.length l) = Some c) as [c Ec].
    { destruct (nth_error (children t) (List.length l)) eqn:E; [eauto|].
      apply nth_error_None in E. rewrite app_length in Hl. cbn in Hl. lia. }
    eapply stage_below; [exact Ec|]. eapply IH; eauto.
    apply (Hc _ _ _ Ec). rewrite nth_error_app2, Nat.sub_diag by lia. reflexivity.
  - destruct He.
  - assert (par = parent /\ u = t) as [-> ->] by (inversion I; auto).
    destruct (resume_cases _ _ _ _ _ _ _ _ H) as
      [(why & -> & _)|[(-> & _)|(b & tasks & sends & He' & -> & -> & Hsends & _)]]; try (destruct He; fail).
    destruct He as [E|He]; [|destruct (Hsends _ He) as (k & _ & X); discriminate].
    injection E as <- <- <- <-. constructor. exact He'.
  - destruct He as [E|[]]. discriminate.
  - destruct He.
Qed.

(** Nothing was seen yet at a node whose children are awaited, no sampling at one that waits for it. *)
Inductive fresh (L : list event) : list nat -> walk -> Prop :=
| fresh_join at_ parent t cs :
    (forall e, In e L -> place e <> at_) ->
    (forall i w, nth_error cs i = Some w -> fresh L (i :: at_) w) ->
    fresh L at_ (Join parent t cs)
| fresh_wait at_ num tasks b plan :
    (forall n, ~ In (Sampled at_ n) L) -> fresh L at_ (Waiting num tasks b plan)
| fresh_ready at_ r : fresh L at_ (Ready r)
| fresh_broken at_ why : fresh L at_ (Broken why).

Lemma fresh_more L M : forall at_ w, fresh L at_ w ->
  (forall e x, In e M -> place e = x ++ at_ -> False) -> fresh (L ++ M) at_ w.
Proof.
  intros at_ w H. induction H as [at_ parent t cs Hn Hc IH|at_ num tasks b plan Hn| |]; intros Hm; try (constructor; fail).
  - constructor.
    + intros e He E. apply in_app_or in He as [He|He]; [exact (Hn e He E)|exact (Hm e [] He E)].
    + intros i w Hi. apply (IH i w Hi). intros e x He E. apply (Hm e (x ++ [i]) He). rewrite E, <- app_assoc. reflexivity.
  - constructor. intros n He. apply in_app_or in He as [He|He]; [exact (Hn n He)|]. exact (Hm _ [] He eq_refl).
Qed.

Lemma start_fresh : forall (t : tree) parent at_, fresh [] at_ (start parent t).
Proof.
  induction t as [k cs IH|w m cs IH|b part q n ts i IH] using tree_ind'; intros parent at_; cbn [start];
    (constructor; [intros e []|]).
  1,2: intros i w' Hw; rewrite nth_error_map in Hw; destruct (nth_error cs i) as [c|] eqn:E; [|discriminate];
    injection Hw as <-; rewrite Forall_forall in IH; apply IH; eapply nth_error_In; eauto.
  intros [|j] w Hw; cbn in Hw; [injection Hw as <-; apply IH|destruct j; discriminate].
Qed.

Lemma step_fresh : forall at_ next w evs next' w', wstep at_ next w evs next' w' ->
  forall L, NoDup L -> fresh L at_ w -> NoDup (L ++ evs) /\ fresh (L ++ evs) at_ w'.
Proof.
  assert (NDapp : forall (A : Type) (l m : list A), NoDup l -> NoDup m -> (forall x, In x l -> ~ In x m) -> NoDup (l ++ m)).
  { intros A l m Hl Hm Hd. induction l as [|x l IHl]; [exact Hm|]. inversion Hl; subst. cbn. constructor.
    - intros X. apply in_app_or in X as [X|X]; [auto|]. exact (Hd x (or_introl eq_refl) X).
    - apply IHl; auto. intros y Hy. apply Hd. right. exact Hy. }
  intros at_ next w evs next' w' H.
  induction H as [at_ next parent t l w r evs next' w' H IH|at_ next parent t l why r
    |at_ next parent t rs evs next' w H|at_ next num tasks b plan Hs|at_ next num tasks b plan why Hs Hn]; intros L ND F.
  - inversion F as [a p v cs Hn Hc Ea Ep| | |]; subst.
    destruct (IH L ND) as [ND' F'].
    { apply (Hc (List.length l)). rewrite nth_error_app2, Nat.sub_diag by lia. reflexivity. }
    split; [exact ND'|]. constructor.
    + intros e He E. apply in_app_or in He as [He|He]; [exact (Hn e He E)|].
      destruct (step_place _ _ _ _ _ _ H e He) as [x Ex]. rewrite Ex in E.
      apply (f_equal (@List.length nat)) in E. rewrite app_length in E. cbn in E. lia.
    + intros i z E2. apply (nth_error_split_at _ _ w) in E2 as [[-> ->]|[Hne E2]]; [exact F'|].
      apply fresh_more; [eauto|]. intros e x He E. destruct (step_place _ _ _ _ _ _ H e He) as [y Ey].
      rewrite Ey in E. apply suffix_same in E as [E _]. congruence.
  - rewrite app_nil_r. split; [exact ND|constructor].
  - inversion F as [a p v cs Hno Hc Ea Ep| | |]; subst.
    destruct (resume_cases _ _ _ _ _ _ _ _ H) as
      [(why & -> & -> & _)|[(-> & _ & _ & x & -> & _)|(b & tasks & sends & He' & -> & -> & Hsends & NDs & Hcase)]].
    + rewrite app_nil_r. split; [exact ND|constructor].
    + rewrite app_nil_r. split; [exact ND|constructor].
    + split.
      * apply NDapp; [exact ND| |].
        -- constructor; [|exact NDs]. intros X. destruct (Hsends _ X) as (k & _ & E). discriminate.
        -- intros e He [<-|Hs]; [exact (Hno _ He eq_refl)|].
           destruct (Hsends _ Hs) as (k & _ & ->). exact (Hno _ He eq_refl).
      * destruct Hcase as [(why & ->)|(_ & plan & _ & [(_ & x & -> & _)|(_ & ->)])]; constructor.
        intros n He. apply in_app_or in He as [He|[E|He]]; [exact (Hno _ He eq_refl)|discriminate|].
        destruct (Hsends _ He) as (k & _ & E). discriminate.
  - inversion F as [|a n ts b' pl Hno| |]; subst. split.
    + apply NDapp; [exact ND|constructor; [intros []|constructor]|].
      intros e He [<-|[]]. exact (Hno _ He).
    + destruct (put_boundary b tasks plan); constructor.
  - rewrite app_nil_r. split; [exact ND|constructor].
Qed.

Lemma prepares_fresh p k log next w : prepares p k log next w -> NoDup log /\ fresh log [] w.
Proof.
  induction 1 as [|k log next w evs next' w' H [ND F] Hs]; [split; [constructor|apply start_fresh]|].
  eapply step_fresh; eauto.
Qed.

Lemma step_announced : forall at_ next w evs next' w', wstep at_ next w evs next' w' ->
  forall L parent t, inv L at_ parent t w -> forall m1 m2 e, evs = m1 ++ e :: m2 ->
  match e with
  | Routed _ _ _ _ => True
  | Sent q n i => exists b tasks, In (Routed q n b tasks) (L ++ m1) /\ i < tasks
  | Sampled q n => exists b tasks, b <> BCoalesce /\ In (Routed q n b tasks) (L ++ m1) /\
                     forall i, i < tasks -> In (Sent q n i) (L ++ m1)
  end.
Proof.
  intros at_ next w evs next' w' H.
  induction H as [at_ next parent t l w r evs next' w' H IH|at_ next parent t l why r
    |at_ next parent t rs evs next' w H|at_ next num tasks b plan Hs|at_ next num tasks b plan why Hs Hn];
    intros L par u I m1 m2 e He.
  - inversion I as [a p v cs Hl Hc Ea Ep Eu| | |]; subst.
    assert (exists c, nth_error (children t) (List.length l) = Some c) as [c Ec].
    { destruct (nth_error (children t) (List.length l)) eqn:E; [eauto|].
      apply nth_error_None in E. rewrite app_length in Hl. cbn in Hl. lia. }
    eapply IH; [|reflexivity]. apply (Hc _ _ _ Ec). rewrite nth_error_app2, Nat.sub_diag by lia. reflexivity.
  - destruct m1; discriminate.
  - destruct (resume_cases _ _ _ _ _ _ _ _ H) as
      [(why & -> & _)|[(-> & _)|(b & tasks & sends & He' & -> & -> & Hsends & _)]]; try (destruct m1; discriminate).
    destruct m1 as [|x m1]; injection He as <- He; [exact Logic.I|].
    destruct (Hsends e) as (k & Hk & ->); [rewrite He; apply in_or_app; right; left; reflexivity|].
    exists b, tasks. split; [|exact Hk]. apply in_or_app. right. left. reflexivity.
  - inversion I as [|a p v n ts b' pl He' Hnc Hr Hse Hb Hi| |]; subst.
    destruct m1 as [|x m1]; [|destruct m1; discriminate]. injection He as <- _.
    rewrite app_nil_r. exists b, tasks. auto.
  - destruct m1; discriminate.
Qed.

Theorem announced_before p k log next w : prepares p k log next w ->
  forall l1 e l2, log = l1 ++ e :: l2 ->
  match e with
  | Routed _ _ _ _ => True
  | Sent q n i => exists b tasks, In (Routed q n b tasks) l1 /\ i < tasks
  | Sampled q n => exists b tasks, b <> BCoalesce /\ In (Routed q n b tasks) l1 /\
                     forall i, i < tasks -> In (Sent q n i) l1
  end.
Proof.
  induction 1 as [|k log next w evs next' w' H IH Hs]; intros l1 e l2 E.
  - destruct l1; discriminate.
  - apply app_middle in E as [(l3 & ->)|(m1 & m2 & -> & ->)]; [eapply IH; eauto|].
    eapply step_announced; [exact Hs|eapply prepares_inv; eauto|reflexivity].
Qed.

Theorem routed_stages p k log next w : prepares p k log next w ->
  forall q num b tasks, In (Routed q num b tasks) log -> stage_of p q b.
Proof.
  induction 1 as [|k log next w evs next' w' H IH Hs]; intros q num b tasks He; [destruct He|].
  apply in_app_or in He as [He|He]; [eauto|].
  eapply step_stage; [exact Hs|eapply prepares_inv; eauto|exact He].
Qed.

(** *** Numbers *)

Lemma sends_no_number at_ num tasks sends :
  (forall e, In e sends -> exists k, k < tasks /\ e = Sent at_ num k) -> numbers sends = [] /\ places sends = [].
Proof.
  induction sends as [|e sends IH]; intros H; [split; reflexivity|].
  destruct (H e (or_introl eq_refl)) as (k & _ & ->). cbn. apply IH. intros e' He'. apply H. right. exact He'.
Qed.

Lemma step_numbers : forall at_ next w evs next' w', wstep at_ next w evs next' w' ->
  forall L, fresh L at_ w ->
  (numbers evs = [] /\ places evs = [] /\ next <= next') \/
  (numbers evs = [next] /\ next' = S next /\ exists q, places evs = [q] /\ forall e, In e L -> place e <> q).
Proof.
  intros at_ next w evs next' w' H.
  induction H as [at_ next parent t l w r evs next' w' H IH|at_ next parent t l why r
    |at_ next parent t rs evs next' w H|at_ next num tasks b plan Hs|at_ next num tasks b plan why Hs Hn]; intros L F.
  - apply (IH L). inversion F as [a p v cs Hno Hc Ea Ep| | |]; subst. apply (Hc (List.length l)). rewrite nth_error_app2, Nat.sub_diag by lia. reflexivity.
  - left. auto.
  - inversion F as [a p v cs Hno Hc Ea Ep| | |]; subst.
    destruct (resume_cases _ _ _ _ _ _ _ _ H) as
      [(why & -> & _ & Hle)|[(-> & -> & _)|(b & tasks & sends & He' & -> & -> & Hsends & _)]]; [left; auto|left; auto|].
    right. apply sends_no_number in Hsends as [E1 E2]. cbn. unfold numbers, places in *. rewrite E1, E2.
    repeat split. exists at_. auto.
  - left. auto.
  - left. auto.
Qed.

Lemma places_in : forall log q, In q (places log) -> exists e, In e log /\ place e = q.
Proof.
  induction log as [|e log IH]; intros q H; [destruct H|]. unfold places in *. cbn in H.
  apply in_app_or in H as [H|H].
  - exists e. split; [left; reflexivity|]. destruct e; cbn in H; intuition.
  - destruct (IH q H) as (e' & He & E). exists e'. split; [right; exact He|exact E].
Qed.

Lemma increasing_snoc : forall l n, increasing l -> (forall x, In x l -> x < n) -> increasing (l ++ [n]).
Proof.
  induction l as [|x l IH]; intros n H Hn; cbn.
  - split; [intros y []|exact Logic.I].
  - destruct H as [Hx Hl]. split.
    + intros y Hy. apply in_app_or in Hy as [Hy|[<-|[]]]; [auto|]. apply Hn. left. reflexivity.
    + apply IH; [exact Hl|]. intros y Hy. apply Hn. right. exact Hy.
Qed.

Lemma nodup_snoc {A} : forall (l : list A) x, NoDup l -> ~ In x l -> NoDup (l ++ [x]).
Proof.
  induction l as [|y l IH]; intros x H Hn; [constructor; [intros []|constructor]|].
  inversion H; subst. cbn. constructor.
  - intros X. apply in_app_or in X as [X|[X|[]]]; [auto|]. subst. apply Hn. left. reflexivity.
  - apply IH; [auto|]. intros X. apply Hn. right. exact X.
Qed.

Theorem numbered p k log next w : prepares p k log next w ->
  increasing (numbers log) /\ (forall n, In n (numbers log) -> 1 <= n < next) /\ 1 <= next /\ NoDup (places log).
Proof.
  induction 1 as [|k log next w evs next' w' H (A & B & C & D) Hs].
  - repeat split; try (intros; exfalso; assumption); try lia; try constructor; cbn in *; try tauto.
  - destruct (prepares_fresh _ _ _ _ _ H) as [_ F].
    unfold numbers, places in *. rewrite !flat_map_app.
    destruct (step_numbers _ _ _ _ _ _ Hs log F) as [(E1 & E2 & Hle)|(E1 & -> & q & E2 & Hq)];
      unfold numbers, places in *; rewrite E1, E2.
    + rewrite !app_nil_r. split; [exact A|]. split; [|split; [lia|exact D]]. intros n Hn. specialize (B n Hn). lia.
    + split; [apply increasing_snoc; [exact A|]; intros n Hn; specialize (B n Hn); lia|]. split; [|split; [lia|]].
      * intros n Hn. apply in_app_or in Hn as [Hn|[<-|[]]]; [specialize (B n Hn)|]; lia.
      * apply nodup_snoc; [exact D|]. intros X. apply places_in in X as (e & He & E). exact (Hq e He E).
Qed.
End Proofs.
