(** Proofs about the leaves shown by EXPLAIN ANALYZE. *)
From Verif Require Import Base ShowModel ShowSpec ShowProofs LeafShowModel.
From Coq Require Import NArith String.

Lemma get_insert t m map u : get_task u (insert_metric t m map) =
  if (u =? t)%N then Some (match get_task u map with Some ms => ms ++ [m] | None => [m] end) else get_task u map.
Proof.
  induction map as [|[k ms] rest IH]; cbn.
  - rewrite (N.eqb_sym t u). now destruct (u =? t)%N.
  - destruct (k =? t)%N eqn:Ek; cbn.
    + apply N.eqb_eq in Ek. subst k. rewrite (N.eqb_sym t u). now destruct (u =? t)%N.
    + rewrite IH. destruct (k =? u)%N eqn:Eu; [|reflexivity]. apply N.eqb_eq in Eu. subst k. now rewrite Ek.
Qed.

Definition of_task (t : N) (ms : list metric) : list metric :=
  filter (fun m => match task_number m with Some u => (t =? u)%N | None => false end) ms.

Lemma get_fold t ms : forall map,
  get_task t (fold_left (fun map m => match task_number m with Some t => insert_metric t m map | None => map end) ms map) =
  match get_task t map, of_task t ms with
  | None, [] => None
  | None, l => Some l
  | Some l, l' => Some (l ++ l')
  end.
Proof.
  induction ms as [|m ms IH]; intros map; cbn.
  - destruct (get_task t map); [now rewrite app_nil_r|reflexivity].
  - rewrite IH. destruct (task_number m) as [u|]; [|reflexivity]. rewrite get_insert.
    destruct (t =? u)%N; [|reflexivity]. destruct (get_task t map) as [l|]; [now rewrite <- app_assoc|reflexivity].
Qed.

Lemma by_task_get t ms : get_task t (metrics_by_task_id ms) = match of_task t ms with [] => None | l => Some l end.
Proof. unfold metrics_by_task_id. now rewrite get_fold. Qed.

Lemma insert_not_nil t m map : insert_metric t m map <> [].
Proof. destruct map as [|[k ms] rest]; cbn; [discriminate|]. now destruct (k =? t)%N. Qed.

Lemma by_task_nil ms : metrics_by_task_id ms = [] <-> forall m, In m ms -> task_number m = None.
Proof.
  unfold metrics_by_task_id.
  assert (G : forall map, fold_left (fun map m => match task_number m with Some t => insert_metric t m map | None => map end) ms map = []
                          <-> map = [] /\ forall m, In m ms -> task_number m = None).
  { induction ms as [|m ms IH]; intros map; cbn; [tauto|]. rewrite IH. destruct (task_number m) as [t|] eqn:E.
    - split; [intros [H _]; now apply insert_not_nil in H|]. intros [_ H]. rewrite (H m (or_introl eq_refl)) in E. discriminate.
    - split; intros [H1 H2]; (split; [exact H1|]).
      + intros x [<-|Hx]; auto.
      + auto. }
  rewrite G. tauto.
Qed.

Lemma label_annotate t ms : map (label_metric t) ms = annotate (N.of_nat t) ms.
Proof. reflexivity. Qed.

Lemma label_number t ms m : (N.of_nat t < 2 ^ 64)%N -> unlabelled ms -> In m (map (label_metric t) ms) ->
  task_number m = Some (N.of_nat t).
Proof.
  intros Ht Hu Hm. rewrite label_annotate in Hm. unfold task_number. rewrite (annotate_task _ ms m Hu Hm). now apply parse_show.
Qed.

Lemma of_task_label t u ms : (N.of_nat t < 2 ^ 64)%N -> unlabelled ms ->
  of_task u (map (label_metric t) ms) = if (u =? N.of_nat t)%N then map (label_metric t) ms else [].
Proof.
  intros Ht Hu. assert (H : forall m, In m (map (label_metric t) ms) -> task_number m = Some (N.of_nat t)).
  { intros m. now apply label_number. }
  revert H. generalize (map (label_metric t) ms). unfold of_task. induction l as [|m l IH]; intros H; cbn [filter].
  - now destruct (u =? N.of_nat t)%N.
  - rewrite (H m (or_introl eq_refl)). rewrite IH by (intros; apply H; now right). now destruct (u =? N.of_nat t)%N.
Qed.

Lemma of_task_app t a b : of_task t (a ++ b) = of_task t a ++ of_task t b.
Proof. apply filter_app. Qed.

Lemma of_task_none t ms : unlabelled ms -> of_task t ms = [].
Proof.
  intros Hu. unfold of_task. assert (H : forall m, In m ms -> task_number m = None).
  { intros m Hm. unfold task_number. now rewrite (unlabelled_task ms m Hu Hm). }
  revert H. clear Hu. induction ms as [|m ms IH]; intros H; cbn; [reflexivity|].
  rewrite (H m (or_introl eq_refl)). apply IH. intros; apply H; now right.
Qed.

Lemma of_task_flat (per : nat -> list metric) u l :
  (forall t, In t l -> (N.of_nat t < 2 ^ 64)%N) -> (forall t, In t l -> unlabelled (per t)) -> NoDup l ->
  of_task (N.of_nat u) (flat_map (fun t => map (label_metric t) (per t)) l) =
  if in_dec Nat.eq_dec u l then map (label_metric u) (per u) else [].
Proof.
  induction l as [|t l IH]; intros Hl Hu Hn; cbn [flat_map]; [reflexivity|].
  inversion Hn as [|? ? Hx Hn']; subst. rewrite of_task_app, of_task_label by (apply Hl || apply Hu; now left).
  rewrite IH; [|intros; apply Hl; now right|intros; apply Hu; now right|exact Hn'].
  destruct (N.eqb_spec (N.of_nat u) (N.of_nat t)) as [E|E].
  - apply Nat2N.inj in E. subst u. destruct (in_dec Nat.eq_dec t l) as [|_]; [contradiction|]. rewrite app_nil_r.
    destruct (in_dec Nat.eq_dec t (t :: l)) as [_|N]; [reflexivity|]. destruct N. now left.
  - assert (u <> t) by congruence. rewrite app_nil_l.
    destruct (in_dec Nat.eq_dec u l) as [Y|N], (in_dec Nat.eq_dec u (t :: l)) as [Y'|N']; try reflexivity.
    + destruct N'. now right.
    + destruct Y'; [congruence|contradiction].
Qed.

Lemma wrapper_of_task t wrapped inner :
  (forall l, inner = Some l -> unlabelled l) -> of_task t (wrapper_metrics wrapped inner) = of_task t wrapped.
Proof.
  intros H. unfold wrapper_metrics. destruct inner as [l|]; [|reflexivity]. rewrite of_task_app.
  rewrite (of_task_none _ (filter _ l)); [apply app_nil_r|]. intros m Hm. apply filter_In in Hm. now apply (H l eq_refl).
Qed.
