(** Property C80: what EXPLAIN ANALYZE shows is what the tasks recorded. *)
From Verif Require Import Base ShowModel ShowSpec ShowProofs.
From Coq Require Import NArith String Ascii Sorting.Sorted.
Open Scope string_scope.
Open Scope list_scope.

Section Props.
Variables (sort_key : nat -> nat) (timestamp : nat -> bool) (op : nat -> N -> N -> N) (unit : nat -> N)
  (display : mvalue -> string).
Notation formats := (formats sort_key timestamp op unit display).
Notation total := (total op unit).
Notation text := (text display).

(** C80. The metrics of a node, one list per task, shown per task: the text lists every name that is not
    a timestamp once, and under it for every task that recorded something under that name one value, the
    total of what the task recorded, with the number of the task, in the order of the tasks; and nothing
    else. *)
Theorem C80_per_task tasks out :
  unlabelled (List.concat tasks) -> one_kind (List.concat tasks) -> (N.of_nat (List.length tasks) <= 2 ^ 64)%N ->
  formats (per_task tasks) out ->
  exists gs, out = text gs /\ tidy gs /\
    (forall n, In n (map fst gs) <->
       exists m, In m (List.concat tasks) /\ name m = n /\ timestamp (variant (mval m)) = false) /\
    (forall n es e, In (n, es) gs ->
       (In e es <-> exists t ms m, nth_error tasks t = Some ms /\ In m ms /\ name m = n /\
          e = (Some (N.of_nat t), mkValue (variant (mval m)) n (total (variant (mval m)) (amounts n ms))))).
Proof.
  intros Hu Hk Hl H.
  destruct (shown sort_key timestamp op unit display (per_task tasks) out (per_task_one_kind tasks Hu Hk) (per_task_numbered tasks Hu Hl) H)
    as (gs & -> & Ht & Hn & He).
  exists gs. split; [reflexivity|]. split; [exact Ht|].
  assert (Hval : forall t ms m m0, nth_error tasks t = Some ms -> In m (per_task tasks) -> mval m = mval m0 -> task_id m = Some (show (0 + N.of_nat t)) ->
    (id_of m, mkValue (variant (mval m)) (name m) (total (variant (mval m)) (recorded (mkey m) (per_task tasks))))
    = (Some (N.of_nat t), mkValue (variant (mval m0)) (name m0) (total (variant (mval m0)) (amounts (name m0) ms)))).
  { intros t ms m m0 E _ Ev Et. assert (Hi : t < List.length tasks) by (apply nth_error_Some; congruence).
    assert (En : name m = name m0) by (unfold name; congruence). unfold mkey. rewrite Et, Ev, En. unfold per_task.
    rewrite recorded_per_task by (auto; lia). rewrite (nth_error_nth tasks t [] E). f_equal. unfold id_of. rewrite Et. now rewrite parse_show by lia. }
  split.
  - intros n. rewrite Hn. split.
    + intros (m & Hm & En & Hts). destruct (per_task_in tasks 0 m Hu Hm) as (i & ms & m0 & E & Hin & Ev & Et). exists m0.
      split; [apply in_concat; exists ms; split; [eapply nth_error_In; eauto|auto]|]. rewrite <- Ev. split; [|auto]. unfold name in *. congruence.
    + intros (m0 & Hm0 & En & Hts). apply in_concat in Hm0. destruct Hm0 as (ms & Hms & Hin). apply In_nth_error in Hms. destruct Hms as (i & E).
      destruct (per_task_has tasks 0 i ms m0 E Hin Hu) as (m & Hm & Ev & Et). exists m. split; [auto|]. rewrite Ev. split; [|auto]. unfold name in *. congruence.
  - intros n es e Hes. rewrite (He n es e Hes). split.
    + intros (m & Hm & En & ->). destruct (per_task_in tasks 0 m Hu Hm) as (i & ms & m0 & E & Hin & Ev & Et). exists i, ms, m0.
      split; [exact E|]. split; [exact Hin|]. assert (En0 : name m0 = n) by (unfold name in *; congruence). split; [exact En0|].
      pose proof (Hval i ms m m0 E Hm Ev Et) as X. rewrite En, En0 in X. exact X.
    + intros (t & ms & m0 & E & Hin & En & ->). destruct (per_task_has tasks 0 t ms m0 E Hin Hu) as (m & Hm & Ev & Et). exists m.
      split; [exact Hm|]. assert (En0 : name m = n) by (unfold name in *; congruence). split; [exact En0|].
      pose proof (Hval t ms m m0 E Hm Ev Et) as X. rewrite En, En0 in X. now symmetry.
Qed.

(** Shown aggregated: every name once with one value, the total over all tasks. *)
Theorem C80_aggregated tasks out :
  unlabelled (List.concat tasks) -> one_kind (List.concat tasks) ->
  formats (aggregated tasks) out ->
  exists gs, out = text gs /\ tidy gs /\
    (forall n, In n (map fst gs) <->
       exists m, In m (List.concat tasks) /\ name m = n /\ timestamp (variant (mval m)) = false) /\
    (forall n es, In (n, es) gs -> exists m, In m (List.concat tasks) /\ name m = n /\
       es = [(None, mkValue (variant (mval m)) n (total (variant (mval m)) (amounts n (List.concat tasks))))]).
Proof.
  intros Hu Hk H.
  assert (Hnum : numbered (aggregated tasks)). { intros m Hm. left. now apply (unlabelled_task (List.concat tasks)). }
  destruct (shown sort_key timestamp op unit display (aggregated tasks) out Hk Hnum H) as (gs & -> & Ht & Hn & He).
  exists gs. split; [reflexivity|]. split; [exact Ht|]. split; [exact Hn|]. intros n es Hes.
  destruct (proj2 Ht n es Hes) as [Hne Hs].
  assert (Hall : forall e, In e es -> exists m, In m (List.concat tasks) /\ name m = n /\
    e = (None, mkValue (variant (mval m)) n (total (variant (mval m)) (amounts n (List.concat tasks))))).
  { intros e Hi. apply (He n es e Hes) in Hi. destruct Hi as (m & Hm & En & ->). exists m. split; [auto|]. split; [auto|].
    unfold mkey, id_of. rewrite (unlabelled_task _ m Hu Hm), En. unfold aggregated. now rewrite recorded_aggregated. }
  destruct es as [|e [|e' es]]; [now destruct Hne| |].
  - destruct (Hall e (or_introl eq_refl)) as (m & Hm & En & ->). eauto.
  - exfalso. destruct (Hall e (or_introl eq_refl)) as (m & _ & _ & ->), (Hall e' (or_intror (or_introl eq_refl))) as (m' & _ & _ & ->).
    cbn in Hs. inversion Hs as [|? ? _ Hf]; subst. apply Forall_inv in Hf. exact Hf.
Qed.

(** The text exists: formatting does not panic. *)
Theorem C80_no_panic tasks :
  unlabelled (List.concat tasks) -> one_kind (List.concat tasks) ->
  (exists out, formats (per_task tasks) out) /\ (exists out, formats (aggregated tasks) out).
Proof.
  intros Hu Hk. split; apply formats_exists; [now apply per_task_one_kind|exact Hk].
Qed.

(** Neither the order in which a task recorded its metrics nor the order of the hash map shows: if
    merging values does not depend on the order, there is one text. *)
Theorem C80_order tasks tasks' out out' :
  (forall v x y z, op v (op v x y) z = op v (op v x z) y) ->
  unlabelled (List.concat tasks) -> one_kind (List.concat tasks) -> (N.of_nat (List.length tasks) <= 2 ^ 64)%N ->
  Forall2 (@Permutation metric) tasks tasks' ->
  formats (per_task tasks) out -> formats (per_task tasks') out' -> out = out'.
Proof.
  intros Hc Hu Hk Hl Hp. apply formats_unique; auto.
  - now apply per_task_one_kind.
  - now apply per_task_numbered.
  - clear - Hp. unfold per_task. generalize 0%N. induction Hp as [|a b ta tb Hab _ IH]; intros t; cbn; [constructor|].
    apply Permutation_app; [now apply Permutation_map|apply IH].
Qed.

End Props.
Print Assumptions C80_per_task.
Print Assumptions C80_aggregated.
Print Assumptions C80_no_panic.
Print Assumptions C80_order.

(** The header of a stage shows the metrics of the stage and of all its tasks, if all have reported. *)
Theorem C80_header stage store tasks ms :
  (forall i, store (N.of_nat i) = nth_error tasks i) ->
  (header stage store ms <-> ms = stage ++ per_task tasks).
Proof.
  intros Hs. split.
  - intros (rest & Hr & ->). f_equal. apply (header_per_task store tasks 0 rest Hr). exact Hs.
  - intros ->. exists (per_task tasks). split; [|reflexivity]. apply header_exists. exact Hs.
Qed.
Print Assumptions C80_header.

(** A node that ran in this process, whose own metrics are those that were reported, is not counted twice. *)
Theorem C80_in_process wrapped local :
  (forall m, In m local -> exists w, In w wrapped /\ mval w = mval m /\ mpartition w = mpartition m) ->
  wrapper_metrics wrapped (Some local) = wrapped.
Proof.
  intros H. apply wrapper_once. intros m Hm. destruct (H m Hm) as (w & Hw & Ev & Ep). apply existsb_exists. exists w. split; [exact Hw|].
  unfold same_metric, name. rewrite Ev, Ep, Nat.eqb_refl, String.eqb_refl, N.eqb_refl. cbn. destruct (mpartition m); [apply Nat.eqb_refl|reflexivity].
Qed.
Print Assumptions C80_in_process.

Module ShowEx.
Definition count (n : string) (x : N) : metric := mkMetric (mkValue 0 n x) None [].
Definition start (x : N) : metric := mkMetric (mkValue 2 "start" x) None [].
Definition sort_key (v : nat) : nat := v.
Definition timestamp (v : nat) : bool := (v =? 2)%nat.
Definition op (v : nat) : N -> N -> N := if (v =? 2)%nat then N.min else N.add.
Definition unit (v : nat) : N := if (v =? 2)%nat then 1000%N else 0%N.
Definition display (v : mvalue) : string := show (amount v).
Definition tasks : list (list metric) :=
  [[count "output_rows" 3; start 17; count "output_rows" 4; count "batches" 1]; []; [count "output_rows" 5]].

(** The hypotheses hold, and the text is as documented. *)
Example tasks_ok : unlabelled (List.concat tasks) /\ one_kind (List.concat tasks).
Proof.
  split.
  - intros m Hm. cbn in Hm. repeat destruct Hm as [<-|Hm]; cbn; tauto.
  - intros a b Ha Hb. cbn in Ha, Hb. repeat destruct Ha as [<-|Ha]; try destruct Ha; repeat destruct Hb as [<-|Hb]; try destruct Hb; cbn; auto; discriminate.
Qed.
Example tasks_text : formats sort_key timestamp op unit display (per_task tasks) "batches={0:1}, output_rows={0:7, 2:5}".
Proof.
  unfold formats. eexists. 
  exists [mkMetric (mkValue 0 "batches" 1) None [(task_label, "0")]; mkMetric (mkValue 0 "output_rows" 7) None [(task_label, "0")];
     mkMetric (mkValue 0 "output_rows" 5) None [(task_label, "2")]; mkMetric (mkValue 2 "start" 17) None [(task_label, "0")]].
  split; [reflexivity|]. split.
  { cbn. etransitivity; [apply perm_skip; apply perm_swap|]. etransitivity; [apply perm_swap|]. apply perm_skip. apply perm_skip. apply perm_swap. }
  split; [|reflexivity]. unfold sorted_for_display.
  repeat (apply SSorted_cons || apply SSorted_nil || apply Forall_cons || apply Forall_nil); cbn; unfold sort_key; intuition lia.
Qed.

(** A metric of another variant under a name in use makes the display panic. *)
Theorem C80_kinds_refuted :
  exists ms, unlabelled ms /\ ms = [count "rows" 3; mkMetric (mkValue 1 "rows" 4) None []] /\
    aggregate_by_task_id op unit ms = Panic "Mismatched metric types" /\
    forall out, ~ formats sort_key timestamp op unit display ms out.
Proof.
  eexists. split; [|split; [reflexivity|split; [reflexivity|]]].
  - intros m Hm. cbn in Hm. repeat destruct Hm as [<-|Hm]; cbn; tauto.
  - intros out (l & s & E & _). discriminate E.
Qed.

(** A metric that already has a label of that name is shown as the value of the task its label names:
    here both values were recorded by task 0, and 5 is shown as that of task 1. *)
Theorem C80_user_label_refuted :
  exists tasks, List.length tasks = 1 /\ one_kind (List.concat tasks) /\
    formats sort_key timestamp op unit display (per_task tasks) "rows={0:3, 1:5}".
Proof.
  exists [[count "rows" 3; mkMetric (mkValue 0 "rows" 5) None [("task_id", "1")]]]. split; [reflexivity|]. split.
  - intros a b Ha Hb. cbn in Ha, Hb. repeat destruct Ha as [<-|Ha]; try destruct Ha; repeat destruct Hb as [<-|Hb]; try destruct Hb; cbn; auto.
  - eexists. eexists. split; [reflexivity|]. split; [cbn; apply Permutation_refl|]. split; [|reflexivity]. unfold sorted_for_display.
    repeat (apply SSorted_cons || apply SSorted_nil || apply Forall_cons || apply Forall_nil); cbn; unfold sort_key; intuition lia.
Qed.

(** If a task in the middle has not reported, the header leaves out those behind it. *)
Theorem C80_header_gap_refuted :
  exists store, store 2%N = Some [count "rows" 5] /\ header [] store (annotate 0 [count "rows" 3]) /\
    forall ms, header [] store ms -> ms = annotate 0 [count "rows" 3].
Proof.
  exists (fun t => if (t =? 0)%N then Some [count "rows" 3] else if (t =? 2)%N then Some [count "rows" 5] else None).
  split; [reflexivity|].
  set (store := fun t => if (t =? 0)%N then Some [count "rows" 3] else if (t =? 2)%N then Some [count "rows" 5] else None).
  split.
  - exists (annotate 0 [count "rows" 3] ++ []). split; [|reflexivity]. apply header_task; [reflexivity|]. now apply header_end.
  - intros ms (rest & Hr & ->). cbn [app]. inversion Hr as [t E|t m r E Hr' Et]; subst; [discriminate|]. injection E as <-.
    inversion Hr' as [t E|t m' r' E Hr'']; subst; [apply app_nil_r|discriminate].
Qed.

(** A counter that moved on after it was reported is counted twice in the process of the worker. *)
Theorem C80_moving_counter_refuted :
  exists wrapped local, wrapped = [count "elapsed" 3] /\ local = [count "elapsed" 4] /\
    formats sort_key timestamp op unit display (wrapper_metrics wrapped (Some local)) "elapsed=7".
Proof.
  do 2 eexists. split; [reflexivity|]. split; [reflexivity|]. eexists. eexists. split; [reflexivity|]. split; [apply Permutation_refl|].
  split; [|reflexivity]. repeat constructor.
Qed.
End ShowEx.
Print Assumptions ShowEx.C80_kinds_refuted.
Print Assumptions ShowEx.C80_user_label_refuted.
Print Assumptions ShowEx.C80_header_gap_refuted.
Print Assumptions ShowEx.C80_moving_counter_refuted.
