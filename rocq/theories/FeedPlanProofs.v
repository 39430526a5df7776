(** Proofs about the feeds of a task's plan. *)
From Verif Require Import Base NetModel CiuModel EventsModel PlanModel PlanSpec PlanProofs PlanProps.
From Verif Require Import FeedPlanModel FeedPlanSpec.
From Verif Require FeedModel.

(** ** The coordinator's walk *)

Definition node_of (e : pos * plan * TaskCtx) : list FeedModel.node :=
  match e with
  | (_, POp o _, nctx) => match op_feed o with
                          | Some (feed, _) => [FeedModel.mkNode feed (op_parts o) nctx]
                          | None => []
                          end
  | _ => []
  end.

Lemma foldM_collect {A B} (f : A -> list B) l : forall acc,
  foldM (fun acc x => Ok (acc ++ f x)) l acc = Ok (acc ++ flat_map f l).
Proof.
  induction l as [|x l IH]; intros acc; cbn; [now rewrite app_nil_r|]. rewrite IH. now rewrite <- app_assoc.
Qed.

Lemma apply_ext {S} (f f' : S -> pos -> plan -> TaskCtx -> Res (S * tnr)) :
  (forall s at_ n c, f s at_ n c = f' s at_ n c) ->
  forall p at_ ctx s, apply_with_dt_ctx f p at_ ctx s = apply_with_dt_ctx f' p at_ ctx s.
Proof.
  intros Hf. assert (G : forall l l' : list (S -> Res (S * tnr)),
    Forall2 (fun g g' => forall s, g s = g' s) l l' ->
    forall s t, apply_until_stop l s t = apply_until_stop l' s t).
  { induction 1 as [|g g' l l' Hg _ IH]; intros s t; [reflexivity|]. cbn. rewrite Hg.
    destruct (g' s) as [[s1 t1]| |]; cbn; [|reflexivity|reflexivity]. destruct t1; auto. }
  induction p as [o cs IH|k m cs IH|b k t cs IH|k o vs IHo IH|k] using plan_ind'; intros at_ ctx s;
    cbn [apply_with_dt_ctx]; rewrite Hf; destruct (f' s at_ _ ctx) as [[s1 t1]| |]; cbn [bind]; try reflexivity;
    destruct t1; try reflexivity; rewrite Forall_forall in IH.
  - apply G. induction (seq 0 (List.length cs)) as [|i l IHl]; constructor; [|exact IHl]. intros s2.
    rewrite !nth_error_map. destruct (nth_error cs i) as [c|] eqn:E; [|reflexivity]. cbn.
    apply IH. eapply nth_error_In; eassumption.
  - destruct (nth_error m (task_index ctx)) as [sl|]; [|reflexivity]. apply G.
    induction sl as [|[i c'] l IHl]; constructor; [|exact IHl]. intros s2.
    rewrite !nth_error_map. destruct (nth_error cs i) as [c|] eqn:E; [|reflexivity]. cbn.
    apply IH. eapply nth_error_In; eassumption.
Qed.

Lemma fed_positions p ctx : runnable p ctx -> fed_nodes p ctx = Ok (flat_map node_of (positions p [] ctx)).
Proof.
  intros Hr. unfold fed_nodes.
  rewrite (apply_ext _ (always_continue (fun acc x => Ok (acc ++ node_of x)))).
  - rewrite apply_positions by assumption. rewrite foldM_collect. reflexivity.
  - intros acc at_ n c. unfold always_continue. cbn. destruct n as [[id k [[f r]|]] cs| | | |]; cbn; try reflexivity;
      now rewrite app_nil_r.
Qed.

(** ** The operators of the plan that arrives *)

Lemma decoded_runs p : forall ctx at_ n nctx, runs_at (decoded p) ctx at_ n nctx ->
  exists n0, runs_at p ctx at_ n0 nctx /\ n = decoded n0.
Proof.
  induction p as [o cs IH|k m cs IH|b k t cs IH|k o vs IHo IH|k] using plan_ind'; intros ctx at_ n nctx H;
    cbn [decoded] in H; inversion H; subst;
    try (eexists; split; [apply runs_here|reflexivity]); rewrite Forall_forall in IH.
  - rewrite nth_error_map in *. destruct (nth_error cs i) as [c0|] eqn:E; [|discriminate].
    match goal with X : option_map _ _ = _ |- _ => injection X as <- end.
    destruct (IH c0 (nth_error_In _ _ E) _ _ _ _ ltac:(eassumption)) as (n0 & H0 & ->).
    exists n0. split; [|reflexivity]. econstructor; eassumption.
  - rewrite nth_error_map in *. destruct (nth_error cs i) as [c0|] eqn:E; [|discriminate].
    match goal with X : option_map _ _ = _ |- _ => injection X as <- end.
    destruct (IH c0 (nth_error_In _ _ E) _ _ _ _ ltac:(eassumption)) as (n0 & H0 & ->).
    exists n0. split; [|reflexivity]. econstructor; eassumption.
Qed.

Lemma runs_decoded p ctx at_ n nctx : runs_at p ctx at_ n nctx -> runs_at (decoded p) ctx at_ (decoded n) nctx.
Proof.
  induction 1; cbn [decoded]; [apply runs_here| |].
  - eapply runs_op; [|eassumption]. rewrite nth_error_map. now rewrite H.
  - eapply runs_union; [eassumption|eassumption| |eassumption]. rewrite nth_error_map. now rewrite H1.
Qed.

Lemma plain_no_feed p : plain p -> forall ctx at_ o cs nctx, runs_at p ctx at_ (POp o cs) nctx -> op_feed o = None.
Proof.
  induction p as [o cs IH|k m cs IH|b k t cs IH|k o vs IHo IH|k] using plan_ind'; intros Hp ctx at_ o' cs' nctx H;
    inversion Hp; subst; inversion H; subst; [reflexivity|].
  rewrite Forall_forall in IH. match goal with X : Forall plain cs |- _ => rewrite Forall_forall in X; rename X into Hc end.
  match goal with X : nth_error cs i = Some ?c |- _ => eapply (IH c); [eapply nth_error_In; exact X| |eassumption];
    apply Hc; eapply nth_error_In; exact X end.
Qed.

Lemma remote_op_feed o feed r : op_feed (remote_op o) = Some (feed, r) ->
  r = true /\ exists r0, op_feed o = Some (feed, r0).
Proof. destruct o as [id n [[f r0]|]]; cbn; [|discriminate]. intros [= -> <-]. eauto. Qed.
Lemma remote_op_parts o : op_parts (remote_op o) = op_parts o /\ op_id (remote_op o) = op_id o.
Proof. destruct o as [id n [[f r0]|]]; cbn; auto. Qed.

(** Operators with feeds of the trimmed plan are those of the stage's plan, with the feed in remote mode. *)
Lemma trimmed_feed p : forall ctx at_ o cs nctx feed r, runnable p ctx -> plain_variants p ctx ->
  runs_at (trimmed p ctx) ctx at_ (POp o cs) nctx -> op_feed o = Some (feed, r) ->
  r = true /\ exists o0 cs0 r0, runs_at p ctx at_ (POp o0 cs0) nctx /\ op_feed o0 = Some (feed, r0) /\
    op_parts o = op_parts o0 /\ op_id o = op_id o0.
Proof.
  induction p as [o0 cs0 IH|k m cs0 IH|b k t cs0 IH|k o0 vs IHo IH|k] using plan_ind';
    intros ctx at_ o cs nctx feed r Hr Hv H Hf; try rewrite Forall_forall in IH.
  - cbn [trimmed] in H. inversion H; subst.
    + destruct (remote_op_feed _ _ _ Hf) as (-> & r0 & E0). split; [reflexivity|].
      exists o0, cs0, r0. pose proof (remote_op_parts o0). repeat split; [constructor|assumption|easy|easy].
    + rewrite nth_error_map in *. destruct (nth_error cs0 i) as [c0|] eqn:E; [|discriminate].
      match goal with X : option_map _ _ = _ |- _ => injection X as <- end.
      destruct (IH c0 (nth_error_In _ _ E) ctx at_0 o cs nctx feed r) as (-> & o1 & cs1 & r1 & H1 & H2);
        [eapply runnable_op; eassumption|eapply plain_variants_op; eassumption|assumption|assumption|].
      split; [reflexivity|]. exists o1, cs1, r1. split; [econstructor; eassumption|assumption].
  - pose proof (Hr [] _ _ (runs_here _ _)) as (sl & Esl & Hnd & Hin).
    remember (trimmed (PCiu k m cs0) ctx) as T eqn:ET.
    assert (HT : exists cs', T = PCiu k m cs' /\ List.length cs' = List.length cs0).
    { subst T. cbn [trimmed]. rewrite Esl. eexists. split; [reflexivity|].
      rewrite map_length, combine_length, seq_length, map_length. lia. }
    destruct HT as (cs' & -> & Hlen). inversion H; subst.
    match goal with E : nth_error m _ = Some ?z |- _ => assert (z = sl) by congruence; subst z end.
    destruct (nth_error cs0 i) as [c0|] eqn:Ec.
    2:{ apply nth_error_None in Ec. match goal with X : nth_error cs' i = Some _ |- _ =>
          assert (i < List.length cs') by (apply nth_error_Some; congruence) end. lia. }
    destruct (trimmed_union_nth k m cs0 ctx sl i c0 Esl Ec) as (cs'' & E'' & _ & Ei).
    rewrite <- ET in E''. injection E'' as <-.
    match goal with X : In (i, ?x) sl |- _ => rewrite (proj2 (slot_ctx_in sl i x Hnd) X) in Ei end.
    match goal with X : nth_error cs' i = Some ?z |- _ => rewrite Ei in X; injection X as <- end.
    destruct (IH c0 (nth_error_In _ _ Ec) cctx at_0 o cs nctx feed r) as (-> & o1 & cs1 & r1 & H1 & H2);
      [eapply runnable_union; eassumption|eapply plain_variants_union; eassumption|assumption|assumption|].
    split; [reflexivity|]. exists o1, cs1, r1. split; [econstructor; eassumption|assumption].
  - cbn in H. inversion H.
  - pose proof (Hr [] _ _ (runs_here _ _)) as (v & Ev & _). cbn [trimmed] in H. rewrite Ev in H.
    pose proof (Hv [] _ _ _ _ (runs_here _ _)) as Hp. rewrite Forall_forall in Hp.
    rewrite (plain_no_feed v (Hp _ (nth_error_In _ _ Ev)) _ _ _ _ _ H) in Hf. discriminate.
  - cbn in H. inversion H.
Qed.

Lemma feed_trimmed p ctx at_ n nctx : runs_at p ctx at_ n nctx -> runnable p ctx ->
  forall o cs feed r, n = POp o cs -> op_feed o = Some (feed, r) ->
  exists cs', runs_at (trimmed p ctx) ctx at_ (POp (mkOp (op_id o) (op_parts o) (Some (feed, true))) cs') nctx.
Proof.
  induction 1 as [p ctx|o0 cs0 ctx i c at_ n nctx E H IH|k m cs0 ctx s i c cctx at_ n nctx Es Hi E H IH];
    intros Hr o cs feed r -> Hf.
  - destruct o as [id k fd]. cbn in Hf. subst fd. cbn [trimmed remote_op op_id op_parts]. eexists. constructor.
  - destruct (IH (runnable_op _ _ _ _ _ Hr E) _ _ _ _ eq_refl Hf) as (cs' & H'). exists cs'. cbn [trimmed].
    econstructor; [|exact H']. rewrite nth_error_map, E. reflexivity.
  - pose proof (Hr [] _ _ (runs_here _ _)) as (sl & Esl & Hnd & Hin). assert (s = sl) by congruence. subst sl.
    destruct (IH (runnable_union _ _ _ _ _ _ _ _ Hr Es Hi E) _ _ _ _ eq_refl Hf) as (cs' & H').
    destruct (trimmed_union_nth k m cs0 ctx s i c Es E) as (cs'' & -> & _ & Ei).
    rewrite (proj2 (slot_ctx_in s i cctx Hnd) Hi) in Ei. exists cs'. econstructor; eassumption.
Qed.

(** ** What is sent *)

Lemma flat_map_one {A B K} (key : A -> K) (f : A -> list B) l x : NoDup (map key l) -> In x l ->
  (forall y, In y l -> f y <> [] -> key y = key x) -> flat_map f l = f x.
Proof.
  intros Hn Hx Hf. induction l as [|y l IH]; [destruct Hx|]. cbn in *. inversion Hn as [|? ? Hni Hnd]; subst.
  destruct Hx as [->|Hx].
  - enough (E : flat_map f l = []) by now rewrite E, app_nil_r. clear IH Hn Hnd.
    induction l as [|z l IHl]; [reflexivity|]. cbn in *.
    destruct (f z) eqn:Ez.
    + cbn. apply IHl; [|tauto]. intros y [Hy|Hy]; apply Hf; auto.
    + exfalso. apply Hni. left. apply Hf; [auto|congruence].
  - destruct (f y) eqn:Ey; [cbn; apply IH; auto|]. exfalso. apply Hni. rewrite (Hf y); [now apply in_map|auto|congruence].
Qed.

Lemma flat_map_call {B} (g : nat -> list B) q k : forall a b,
  flat_map (fun '(p, j) => if p =? q then g j else []) (combine (seq a k) (seq b k))
  = if (a <=? q) && (q <? a + k) then g (b + (q - a)) else [].
Proof.
  induction k as [|k IH]; intros a b; cbn [seq combine flat_map].
  - destruct (Nat.leb_spec a q), (Nat.ltb_spec q (a + 0)); cbn; try reflexivity; lia.
  - rewrite IH. destruct (Nat.eqb_spec a q) as [->|Hne].
    + destruct (Nat.leb_spec (S q) q); [lia|]. cbn [andb]. rewrite app_nil_r.
      destruct (Nat.leb_spec q q); [|lia]. destruct (Nat.ltb_spec q (q + S k)); [|lia]. cbn. f_equal. lia.
    + cbn [app]. destruct (Nat.leb_spec (S a) q), (Nat.leb_spec a q); try lia; cbn [andb];
        destruct (Nat.ltb_spec q (S a + k)), (Nat.ltb_spec q (a + S k)); try lia; try reflexivity. f_equal. lia.
Qed.

Lemma sent_once {unit_} (provider : nat -> nat -> nat -> list unit_) p ctx at_ o cs nctx feed r q :
  runnable p ctx -> own_feeds p ctx -> runs_at p ctx at_ (POp o cs) nctx -> op_feed o = Some (feed, r) ->
  q < op_parts o ->
  units_sent provider (flat_map node_of (positions p [] ctx)) feed q
  = provider feed (op_parts o * task_index nctx + q) (task_count nctx).
Proof.
  intros Hr Ho H Hf Hq. unfold units_sent. rewrite flat_map_flat_map.
  rewrite (flat_map_one pos_of _ _ (at_, POp o cs, nctx)).
  - cbn [node_of]. rewrite Hf. cbn [flat_map FeedModel.nid FeedModel.nctx]. rewrite Nat.eqb_refl, app_nil_r.
    unfold FeedModel.feed_calls. cbn [FeedModel.nparts FeedModel.nctx]. rewrite flat_map_call.
    destruct (Nat.leb_spec 0 q); [|lia]. destruct (Nat.ltb_spec q (0 + op_parts o)); [|lia]. cbn [andb].
    f_equal. lia.
  - now apply positions_nodup.
  - now apply positions_runs.
  - intros [[a n] c] Hin Hne. apply positions_runs in Hin. cbn [node_of] in Hne.
    destruct n as [o' cs'| | | |]; try (now cbn in Hne). destruct (op_feed o') as [[f' r']|] eqn:E; [|now cbn in Hne].
    cbn in Hne. destruct (Nat.eqb_spec f' feed) as [->|]; [|now cbn in Hne]. cbn [pos_of fst].
    exact (Ho _ _ _ _ _ _ _ _ _ _ _ Hin H E Hf).
Qed.
