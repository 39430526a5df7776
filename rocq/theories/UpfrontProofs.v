(** Proofs about the sending of planned stages. *)
From Verif Require Import Base NetModel CiuModel EventsModel JoinModel PlannerModel PlannerProofs
  StagewiseModel StagewiseSpec StagewiseProofs UpfrontModel UpfrontSpec.
Open Scope nat_scope.

Section Proofs.
Context {row : Type}.
Notation tree := (tree row).
Variable routed : list nat -> Res unit.
Variable sent : list nat -> nat -> Res unit.
Notation send_static := (@send_static row routed sent).
Notation send_stage := (send_stage routed sent).

Lemma send_tasks_exact at_ num : forall n i, exists k,
  fst (send_tasks sent at_ num i n) = map (Sent at_ num) (seq i k) /\
  ((snd (send_tasks sent at_ num i n) = Ok tt /\ k = n) \/
   (snd (send_tasks sent at_ num i n) <> Ok tt /\ k < n /\ sent at_ (i + k) = snd (send_tasks sent at_ num i n))).
Proof.
  induction n as [|n IH]; intros i; cbn [send_tasks].
  - exists 0. split; [reflexivity|]. left. auto.
  - destruct (sent at_ i) as [[]|m|m] eqn:E.
    2,3: exists 0; split; [reflexivity|]; right; rewrite Nat.add_0_r, E; split; [discriminate|split; [lia|reflexivity]].
    destruct (IH (S i)) as (k & A & B). destruct (send_tasks sent at_ num (S i) n) as [evs r]. cbn [fst snd] in *.
    exists (S k). split; [cbn; rewrite A; reflexivity|].
    destruct B as [[B ->]|(B & Hk & C)]; [left; auto|right]. split; [exact B|]. split; [lia|].
    rewrite Nat.add_succ_r. exact C.
Qed.

(** What holds of the events [log] and outcome [r] of a part of the walk that deals with the stages [N]
    and whose events stand at the positions [P]. *)
Record fair (P : list nat -> Prop) (N : list nat -> nat -> bkind -> nat -> Prop) (log : list event) (r : Res unit) : Prop := {
  f_place : forall e, In e log -> P (place e);
  f_order : forall l1 e l2, log = l1 ++ e :: l2 -> forall q num b ts, N q num b ts -> under q (place e) ->
              sent_whole l1 q num b ts;
  f_all : r = Ok tt -> forall q num b ts, N q num b ts -> sent_whole log q num b ts;
  f_stage : forall q num b ts, In (Routed q num b ts) log -> N q num b ts;
  f_first : forall l1 q num i l2, log = l1 ++ Sent q num i :: l2 -> exists b ts, In (Routed q num b ts) l1 /\ i < ts;
  f_never : forall q num, ~ In (Sampled q num) log;
  f_once : NoDup log;
  f_places : NoDup (places log);
  f_why : r <> Ok tt -> stopped_by routed sent N log r }.

Lemma sent_whole_more l m q num b ts : sent_whole l q num b ts -> sent_whole (l ++ m) q num b ts.
Proof. intros [A B]. split; [apply in_or_app; auto|]. intros i Hi. apply in_or_app. auto. Qed.
Lemma sent_whole_later l m q num b ts : sent_whole l q num b ts -> sent_whole (m ++ l) q num b ts.
Proof. intros [A B]. split; [apply in_or_app; auto|]. intros i Hi. apply in_or_app. auto. Qed.

Lemma nodup_app {A} : forall l m : list A, NoDup l -> NoDup m -> (forall x, In x l -> ~ In x m) -> NoDup (l ++ m).
Proof.
  induction l as [|x l IH]; intros m Hl Hm Hd; [exact Hm|]. inversion Hl; subst. cbn. constructor.
  - intros X. apply in_app_or in X as [X|X]; [auto|]. exact (Hd x (or_introl eq_refl) X).
  - apply IH; auto. intros y Hy. apply Hd. right. exact Hy.
Qed.

Lemma in_places : forall log q, In q (places log) -> exists e, In e log /\ place e = q.
Proof.
  intros log q H. apply in_flat_map in H as (e & He & Hq). exists e. split; [exact He|].
  destruct e; cbn in Hq; try contradiction. destruct Hq as [<-|[]]. reflexivity.
Qed.

(** Two parts one after the other, where nothing of the second is below what happens in the first. *)
Lemma fair_then P1 N1 l1 r1 P2 N2 l2 r2 :
  fair P1 N1 l1 r1 -> fair P2 N2 l2 r2 ->
  (forall q num b ts, N1 q num b ts -> P1 q) -> (forall q num b ts, N2 q num b ts -> P2 q) ->
  (forall q, P1 q -> P2 q -> False) -> (forall q p, P2 q -> P1 p -> under q p -> False) ->
  fair (fun q => P1 q \/ P2 q) (fun q num b ts => N1 q num b ts \/ N2 q num b ts)
    (fst (in_turn [(l1, r1); (l2, r2)])) (snd (in_turn [(l1, r1); (l2, r2)])).
Proof.
  intros F1 F2 HN1 HN2 Hd Hu.
  assert (E : in_turn [(l1, r1); (l2, r2)] = match r1 with Ok _ => (l1 ++ l2, r2) | _ => (l1, r1) end).
  { cbn. destruct r1; [|reflexivity|reflexivity]. destruct r2 as [[]| |]; rewrite ?app_nil_r; reflexivity. }
  rewrite E. destruct r1 as [[]|m|m].
  - cbn [fst snd]. split.
    + intros e He. apply in_app_or in He as [He|He]; [left; eapply f_place; eauto|right; eapply f_place; eauto].
    + intros a e c Ea q num b ts HN Hq. apply app_middle in Ea as [(l3 & ->)|(m1 & m2 & -> & ->)].
      * destruct HN as [HN|HN]; [eapply (f_order _ _ _ _ F1); eauto|].
        exfalso. apply (Hu q (place e)); [eauto| |exact Hq]. apply (f_place _ _ _ _ F1). apply in_or_app. right. left. reflexivity.
      * destruct HN as [HN|HN].
        -- apply sent_whole_more. apply (f_all _ _ _ _ F1 eq_refl). exact HN.
        -- apply sent_whole_later. eapply (f_order _ _ _ _ F2); eauto.
    + intros R q num b ts [HN|HN].
      * apply sent_whole_more. apply (f_all _ _ _ _ F1 eq_refl). exact HN.
      * apply sent_whole_later. apply (f_all _ _ _ _ F2 R). exact HN.
    + intros q num b ts He. apply in_app_or in He as [He|He]; [left|right]; eapply f_stage; eauto.
    + intros a q num i c Ea. apply app_middle in Ea as [(l3 & ->)|(m1 & m2 & -> & ->)].
      * eapply (f_first _ _ _ _ F1); eauto.
      * destruct (f_first _ _ _ _ F2 m1 q num i m2 eq_refl) as (b & ts & A & B). exists b, ts.
        split; [apply in_or_app; auto|exact B].
    + intros q num He. apply in_app_or in He as [He|He]; eapply f_never in He; eauto.
    + apply nodup_app; [apply (f_once _ _ _ _ F1)|apply (f_once _ _ _ _ F2)|].
      intros e A B. apply (Hd (place e)); [apply (f_place _ _ _ _ F1)|apply (f_place _ _ _ _ F2)]; assumption.
    + unfold places. rewrite flat_map_app. apply nodup_app; [apply (f_places _ _ _ _ F1)|apply (f_places _ _ _ _ F2)|].
      intros q A B. apply in_places in A as (e1 & A & <-). apply in_places in B as (e2 & B & E2).
      apply (Hd (place e1)); [apply (f_place _ _ _ _ F1); assumption|]. rewrite <- E2. apply (f_place _ _ _ _ F2). assumption.
    + intros R. destruct (f_why _ _ _ _ F2 R) as (q & num & b & ts & before & HN & Hc & Hp).
      exists q, num, b, ts, (l1 ++ before). split; [auto|]. split.
      * destruct Hc as [[A ->]|(i & Hi & A & ->)]; [left; auto|right]. exists i. rewrite app_assoc. auto.
      * intros e He. apply in_app_or in He as [He|He]; [|auto]. intros Eq.
        apply (Hd q); [rewrite <- Eq; apply (f_place _ _ _ _ F1); assumption|eauto].
  - cbn [fst snd]. split; try (destruct F1; eassumption).
    + intros e He. left. eapply f_place; eauto.
    + intros a e c Ea q num b ts [HN|HN] Hq; [eapply (f_order _ _ _ _ F1); eauto|].
      exfalso. apply (Hu q (place e)); [eauto| |exact Hq]. apply (f_place _ _ _ _ F1). rewrite Ea. apply in_or_app. right. left. reflexivity.
    + discriminate.
    + intros q num b ts He. left. eapply f_stage; eauto.
    + intros R. destruct (f_why _ _ _ _ F1 R) as (q & num & b & ts & before & HN & Hc & Hp).
      exists q, num, b, ts, before. auto.
  - cbn [fst snd]. split; try (destruct F1; eassumption).
    + intros e He. left. eapply f_place; eauto.
    + intros a e c Ea q num b ts [HN|HN] Hq; [eapply (f_order _ _ _ _ F1); eauto|].
      exfalso. apply (Hu q (place e)); [eauto| |exact Hq]. apply (f_place _ _ _ _ F1). rewrite Ea. apply in_or_app. right. left. reflexivity.
    + discriminate.
    + intros q num b ts He. left. eapply f_stage; eauto.
    + intros R. destruct (f_why _ _ _ _ F1 R) as (q & num & b & ts & before & HN & Hc & Hp).
      exists q, num, b, ts, before. auto.
Qed.

Lemma fair_same (P P' : list nat -> Prop) (N N' : list nat -> nat -> bkind -> nat -> Prop) log r :
  fair P N log r -> (forall q, P q -> P' q) -> (forall q num b ts, N q num b ts <-> N' q num b ts) -> fair P' N' log r.
Proof.
  intros F HP HN. split; try (destruct F; eassumption).
  - intros e He. apply HP. eapply f_place; eauto.
  - intros a e c Ea q num b ts X. apply HN in X. eapply (f_order _ _ _ _ F); eauto.
  - intros R q num b ts X. apply HN in X. eapply (f_all _ _ _ _ F); eauto.
  - intros q num b ts X. apply HN. eapply f_stage; eauto.
  - intros R. destruct (f_why _ _ _ _ F R) as (q & num & b & ts & before & X & Hc & Hp).
    exists q, num, b, ts, before. split; [apply HN; exact X|auto].
Qed.

Lemma fair_nothing P : fair P (fun _ _ _ _ => False) [] (Ok tt).
Proof.
  split.
  - intros e [].
  - intros l1 e l2 H. destruct l1; discriminate.
  - intros _ q num b ts [].
  - intros q num b ts [].
  - intros l1 q num i l2 H. destruct l1; discriminate.
  - intros q num [].
  - constructor.
  - constructor.
  - intros H. congruence.
Qed.

Lemma stage_fair at_ num b tasks :
  fair (fun q => q = at_) (fun q n b' ts => q = at_ /\ n = num /\ b' = b /\ ts = tasks)
    (fst (send_stage at_ num b tasks)) (snd (send_stage at_ num b tasks)).
Proof.
  assert (Irr : forall q, q = at_ -> under q at_ -> False).
  { intros q -> (x & Hx & E). apply (f_equal (@List.length nat)) in E. rewrite app_length in E. destruct x; [congruence|cbn in E; lia]. }
  unfold UpfrontModel.send_stage. destruct (routed at_) as [u|m|m] eqn:R.
  - destruct (send_tasks_exact at_ num tasks 0) as (k & A & B).
    destruct (send_tasks sent at_ num 0 tasks) as [evs r]. cbn [fst snd] in *. subst evs.
    assert (Kin : forall e, In e (map (Sent at_ num) (seq 0 k)) -> exists i, i < k /\ e = Sent at_ num i).
    { intros e He. apply in_map_iff in He as (i & <- & Hi). apply in_seq in Hi. exists i. split; [lia|reflexivity]. }
    assert (Hk : k <= tasks) by (destruct B as [[_ ->]|(_ & H & _)]; lia).
    split.
    + intros e [<-|He]; [reflexivity|]. destruct (Kin e He) as (i & _ & ->). reflexivity.
    + intros l1 e l2 E q n b' ts (-> & _) Hu. exfalso.
      assert (He : In e (Routed at_ num b tasks :: map (Sent at_ num) (seq 0 k))) by (rewrite E; apply in_or_app; right; left; reflexivity).
      assert (place e = at_) as Ep by (destruct He as [<-|He]; [reflexivity|]; destruct (Kin e He) as (i & _ & ->); reflexivity).
      rewrite Ep in Hu. exact (Irr at_ eq_refl Hu).
    + intros Er q n b' ts (-> & -> & -> & ->). split; [left; reflexivity|]. intros i Hi. right.
      apply in_map. apply in_seq. destruct B as [[_ ->]|(B & _)]; [lia|congruence].
    + intros q n b' ts [E|He]; [injection E; auto|]. destruct (Kin _ He) as (i & _ & E). discriminate.
    + intros l1 q n i l2 E. destruct l1 as [|x l1]; [discriminate|]. injection E as <- E.
      destruct (Kin (Sent q n i)) as (j & Hj & Ej); [rewrite E; apply in_or_app; right; left; reflexivity|].
      injection Ej as -> -> ->. exists b, tasks. split; [left; reflexivity|lia].
    + intros q n [E|He]; [discriminate|]. destruct (Kin _ He) as (i & _ & E). discriminate.
    + constructor.
      * intros He. destruct (Kin _ He) as (i & _ & E). discriminate.
      * apply FinFun.Injective_map_NoDup; [|apply seq_NoDup]. intros x y E. injection E. auto.
    + cbn. replace (flat_map _ (map (Sent at_ num) (seq 0 k))) with (@nil (list nat)).
      * constructor; [intros []|constructor].
      * clear. generalize 0. induction k; intros n; cbn; [reflexivity|apply IHk].
    + intros Er. exists at_, num, b, tasks, []. split; [auto|]. split; [|intros e []]. right.
      destruct B as [[B _]|(_ & H & B)]; [congruence|]. exists k. rewrite Nat.add_0_l in B. auto.
  - cbn [fst snd]. split.
    + intros e [].
    + intros l1 e l2 H. destruct l1; discriminate.
    + discriminate.
    + intros q n b' ts [].
    + intros l1 q n i l2 H. destruct l1; discriminate.
    + intros q n [].
    + constructor.
    + constructor.
    + intros _. exists at_, num, b, tasks, []. split; [auto|]. split; [left; auto|intros e []].
  - cbn [fst snd]. split.
    + intros e [].
    + intros l1 e l2 H. destruct l1; discriminate.
    + discriminate.
    + intros q n b' ts [].
    + intros l1 q n i l2 H. destruct l1; discriminate.
    + intros q n [].
    + constructor.
    + constructor.
    + intros _. exists at_, num, b, tasks, []. split; [auto|]. split; [left; auto|intros e []].
Qed.

Lemma net_at_place : forall at_ (t : tree) q num b ts, net_at at_ t q num b ts -> exists x, q = x ++ at_.
Proof.
  induction 1 as [|at_ t i c q num b ts Hc H [x ->]]; [exists []; reflexivity|].
  exists (x ++ [i]). rewrite <- app_assoc. reflexivity.
Qed.

Definition inside (at_ q : list nat) : Prop := exists x : list nat, q = x ++ at_.
Definition fair_tree (at_ : list nat) (t : tree) : Prop :=
  fair (inside at_) (net_at at_ t) (fst (send_static at_ t)) (snd (send_static at_ t)).

Lemma in_turn_cons x l : in_turn (x :: l) = in_turn [x; in_turn l].
Proof.
  destruct x as [evs [u|m|m]]; cbn; [|reflexivity|reflexivity].
  destruct (in_turn l) as [evs' [[]|m|m]]; rewrite ?app_nil_r; reflexivity.
Qed.

Lemma children_fair at_ : forall cs k, Forall (fun c => forall a, fair_tree a c) cs ->
  let l := map (fun '(f, i) => f (i :: at_)) (combine (map (fun c a => send_static a c) cs) (seq k (List.length cs))) in
  fair (fun q => exists i, k <= i /\ inside (i :: at_) q)
    (fun q num b ts => exists i c, nth_error cs i = Some c /\ net_at (k + i :: at_) c q num b ts)
    (fst (in_turn l)) (snd (in_turn l)).
Proof.
  induction cs as [|c cs IH]; intros k H; cbn [map combine seq List.length].
  - eapply fair_same; [apply (fair_nothing (fun _ => False))|intros q []|].
    intros q num b ts. split; [intros []|]. intros (i & c & E & _). destruct i; discriminate.
  - inversion H as [|x y Hc Hcs]; subst. cbv zeta. rewrite in_turn_cons.
    specialize (IH (S k) Hcs). cbv zeta in IH.
    destruct (in_turn (map _ (combine _ (seq (S k) (List.length cs))))) as [l2 r2]. cbn [fst snd] in IH.
    specialize (Hc (k :: at_)). unfold fair_tree in Hc. destruct (send_static (k :: at_) c) as [l1 r1]. cbn [fst snd] in Hc.
    eapply fair_same.
    + eapply (fair_then _ _ _ _ _ _ _ _ Hc IH).
      * intros q num b ts X. exact (net_at_place _ _ _ _ _ _ X).
      * intros q num b ts (i & c' & _ & X). exists (S k + i). split; [lia|]. exact (net_at_place _ _ _ _ _ _ X).
      * intros q (x & ->) (i & Hi & (y & E)). apply suffix_same in E as [E _]. lia.
      * intros q p (i & Hi & (y & ->)) (x & ->) (z & Hz & E). rewrite app_assoc in E.
        apply suffix_same in E as [E _]. lia.
    + intros q [X|(i & Hi & X)]; [exists k; auto|exists i; split; [lia|exact X]].
    + intros q num b ts. split.
      * intros [X|(i & c' & E & X)]; [exists 0, c; rewrite Nat.add_0_r; auto|].
        exists (S i), c'. rewrite Nat.add_succ_r. auto.
      * intros ([|i] & c' & E & X); cbn in E.
        -- left. injection E as <-. rewrite Nat.add_0_r in X. exact X.
        -- right. exists i, c'. rewrite Nat.add_succ_r in X. auto.
Qed.

Theorem static_fair : forall (t : tree) at_, fair_tree at_ t.
Proof.
  assert (K : forall cs at_ (N : list nat -> nat -> bkind -> nat -> Prop), Forall (fun c => forall a, fair_tree a c) cs ->
    (forall q num b ts, (exists i c, nth_error cs i = Some c /\ net_at (i :: at_) c q num b ts) <-> N q num b ts) ->
    let r := in_turn (map (fun '(f, i) => f (i :: at_)) (combine (map (fun c a => send_static a c) cs) (seq 0 (List.length cs)))) in
    fair (inside at_) N (fst r) (snd r)).
  { intros cs at_ N IH HN. eapply fair_same; [apply (children_fair at_ cs 0 IH)| |exact HN].
    intros q (i & _ & x & ->). exists (x ++ [i]). rewrite <- app_assoc. reflexivity. }
  induction t as [k cs IH|w m cs IH|b part qi num ts i IH] using tree_ind'; intros at_; unfold fair_tree; cbn [UpfrontModel.send_static].
  - apply (K cs at_); [exact IH|]. intros q n b' ts. split.
    + intros (i & c & E & X). eapply net_below; [exact E|exact X].
    + intros X. inversion X; subst. eauto.
  - apply (K cs at_); [exact IH|]. intros q n b' ts. split.
    + intros (i & c & E & X). eapply net_below; [exact E|exact X].
    + intros X. inversion X; subst. eauto.
  - specialize (IH (0 :: at_)). unfold fair_tree in IH. pose proof (stage_fair at_ num b ts) as S.
    destruct (send_static (0 :: at_) i) as [l1 r1], (send_stage at_ num b ts) as [l2 r2]. cbn [fst snd] in IH, S.
    eapply fair_same.
    + eapply (fair_then _ _ _ _ _ _ _ _ IH S).
      * intros q n b' ts' X. exact (net_at_place _ _ _ _ _ _ X).
      * intros q n b' ts' (-> & _). reflexivity.
      * intros q (x & ->) E. apply (f_equal (@List.length nat)) in E. rewrite app_length in E. cbn in E. lia.
      * intros q p -> (x & ->) (z & Hz & E). apply (f_equal (@List.length nat)) in E. rewrite !app_length in E. cbn in E. lia.
    + intros q [(x & ->)| ->]; [exists (x ++ [0]); rewrite <- app_assoc; reflexivity|exists []; reflexivity].
    + intros q n b' ts'. split.
      * intros [X|(-> & -> & -> & ->)]; [apply (net_below at_ _ 0 i); [reflexivity|exact X]|constructor].
      * intros X. inversion X as [|? ? j c ? ? ? ? E Y]; subst; [right; auto|].
        left. destruct j as [|j]; cbn in E; [injection E as <-; exact Y|destruct j; discriminate].
Qed.

Lemma send_ok : (forall a, routed a = Ok tt) -> (forall a i, sent a i = Ok tt) ->
  forall p : tree, snd (prepare_static routed sent p) = Ok tt.
Proof.
  intros Hr Hs p. pose proof (static_fair p []) as F. unfold fair_tree in F. unfold prepare_static.
  destruct (send_static [] p) as [log r]. cbn [fst snd] in *.
  assert (D : r = Ok tt \/ r <> Ok tt) by (destruct r as [[]| |]; [left; reflexivity|right; discriminate|right; discriminate]).
  destruct D as [D|D]; [exact D|]. exfalso.
  destruct (f_why _ _ _ _ F D) as (q & num & b & ts & before & _ & [[E _]|(i & _ & E & _)] & _); [rewrite Hr in E|rewrite Hs in E]; congruence.
Qed.
End Proofs.
