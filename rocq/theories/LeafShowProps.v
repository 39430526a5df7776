(** Property C90. *)
From Verif Require Import Base NetModel CiuModel EventsModel PlanModel PlanSpec PlanProofs PlanProps.
From Verif Require Import ShowModel ShowSpec ShowProofs LeafShowModel LeafShowProofs.
From Coq Require Import NArith String.
Local Open Scope nat_scope.

(** Beside the [i]-th part of a leaf stands, in the format with one value per task, what the [i]-th task of the stage
    recorded while reading its part of the leaf; nothing, if that task did not read the leaf or recorded nothing.
    [metrics_of t at_ n] is what task [t] recorded for the operator [n] at position [at_], [worker t] the plan it was
    sent, [inner] the metrics the leaf has at the coordinator, [texts] what is shown for the parts. *)
Theorem C90_lines_by_stage_task p T fuel (metrics_of : nat -> pos -> plan -> list metric) store worker shown
    at_ k o vs texts inner :
  (forall t, t < T -> runnable p (mkCtx t T) /\ plain_variants p (mkCtx t T) /\ leaf_variants p (mkCtx t T)) ->
  height p <= fuel ->
  (forall t, t < T -> exists feeds, task_specialized_plan fuel p (mkCtx t T) = Ok (worker t, feeds) /\
     exists tm, collect_task_metrics (metrics_of t) (worker t) (mkCtx t T) = Ok tm /\ store t = Some tm) ->
  (N.of_nat T <= 2 ^ 64)%N ->
  (forall t n, unlabelled (metrics_of t at_ n)) -> (forall l, inner = Some l -> unlabelled l) ->
  (forall t n c, t < T -> runs_at p (mkCtx t T) at_ n c -> n = PDle k o vs) ->
  List.length texts = List.length vs ->
  stage_metrics_rewriter label_metric p T store = Ok shown ->
  forall header lines, leaf_lines (Some (wrapper_metrics (shown at_) inner)) texts = (header, lines) ->
  map fst lines = texts /\
  ((exists t c n, t < T /\ runs_at p (mkCtx t T) at_ (PDle k o vs) c /\ nth_error vs (task_index c) = Some n /\
                  metrics_of t at_ n <> []) ->
   header = None /\
   forall i text d, nth_error lines i = Some (text, d) ->
     (forall c n, i < T -> runs_at p (mkCtx i T) at_ (PDle k o vs) c -> nth_error vs (task_index c) = Some n ->
        d = Some (match metrics_of i at_ n with [] => None | ms => Some (map (label_metric i) ms) end)) /\
     ((forall c, i < T -> ~ runs_at p (mkCtx i T) at_ (PDle k o vs) c) -> d = Some None)).
Proof.
  intros Hok Hh Hw HT Hu Hi Hleaf Hlen Hr header lines HL.
  destruct (C36_attribution_partial metric label_metric p T fuel metrics_of store worker Hok Hh Hw) as (shown' & E & Hs).
  rewrite Hr in E. injection E as <-. destruct (Hs at_) as (per & Es & Hrun & Hno).
  (* what each task contributed *)
  assert (Hper : exists raw, (forall t, t < T -> per t = map (label_metric t) (raw t) /\ unlabelled (raw t)) /\
     (forall t c n, t < T -> runs_at p (mkCtx t T) at_ (PDle k o vs) c -> nth_error vs (task_index c) = Some n -> raw t = metrics_of t at_ n) /\
     (forall t, t < T -> (forall c, ~ runs_at p (mkCtx t T) at_ (PDle k o vs) c) -> raw t = [])).
  { exists (fun t => map (fun m => mkMetric (mval m) (mpartition m) (removelast (mlabels m))) (per t)).
    assert (Hinv : forall t ms, map (fun m => mkMetric (mval m) (mpartition m) (removelast (mlabels m))) (map (label_metric t) ms) = ms).
    { intros t ms. rewrite map_map. rewrite <- (map_id ms) at 2. apply map_ext. intros m. unfold label_metric. cbn [mval mpartition mlabels].
      rewrite removelast_last. now destruct m. }
    assert (Hd : forall t, t < T -> (exists n c, runs_at p (mkCtx t T) at_ n c) \/ (forall n c, ~ runs_at p (mkCtx t T) at_ n c)).
    { intros t Ht. destruct (in_dec (list_eq_dec Nat.eq_dec) at_ (map (fun '(a, _, _) => a) (positions p [] (mkCtx t T)))) as [Y|N].
      - left. apply in_map_iff in Y. destruct Y as ([[a n] c] & <- & Y). apply positions_runs in Y. eauto.
      - right. intros n c H. apply N. apply positions_runs in H. apply in_map_iff. exists (at_, n, c). auto. }
    split; [|split].
    - intros t Ht. destruct (Hd t Ht) as [(n & c & R)|No].
      + destruct (Hrun t n c Ht R) as (n' & _ & _ & E). rewrite E, Hinv. auto.
      + rewrite (Hno t Ht No). cbn. split; [reflexivity|]. intros m [].
    - intros t c n Ht R En. destruct (Hrun t _ c Ht R) as (n' & _ & Sm & E). cbn in Sm. rewrite En in Sm. injection Sm as <-.
      now rewrite E, Hinv.
    - intros t Ht No. rewrite (Hno t Ht); [reflexivity|]. intros n c R. pose proof (Hleaf t n c Ht R). subst n. exact (No c R). }
  destruct Hper as (raw & Hraw & Hyes & Hnone).
  assert (Eflat : shown at_ = flat_map (fun t => map (label_metric t) (raw t)) (seq 0 T)).
  { rewrite Es. clear - Hraw. assert (G : forall l, (forall t, In t l -> t < T) -> flat_map per l = flat_map (fun t => map (label_metric t) (raw t)) l).
    { induction l as [|t l IH]; intros H; cbn; [reflexivity|]. rewrite (proj1 (Hraw t (H t (or_introl eq_refl)))), IH; [reflexivity|].
      intros; apply H; now right. }
    apply G. intros t Ht. apply in_seq in Ht. lia. }
  assert (Hof : forall i, of_task (N.of_nat i) (wrapper_metrics (shown at_) inner) =
                if in_dec Nat.eq_dec i (seq 0 T) then map (label_metric i) (raw i) else []).
  { intros i. rewrite wrapper_of_task by exact Hi. rewrite Eflat. apply of_task_flat.
    - intros t Ht. apply in_seq in Ht. lia.
    - intros t Ht. apply in_seq in Ht. apply Hraw. lia.
    - apply seq_NoDup. }
  assert (Hcomb : forall (f : nat -> decided) l s, map fst (map (fun '(i, v) => (v : string, f i)) (combine (seq s (List.length l)) l)) = l).
  { intros f. induction l as [|x l IH]; intros s; cbn; [reflexivity|]. now rewrite IH. }
  assert (Hnth : forall (f : nat -> decided) l s i text d,
     nth_error (map (fun '(i, v) => (v : string, f i)) (combine (seq s (List.length l)) l)) i = Some (text, d) -> d = f (s + i)).
  { intros f. induction l as [|x l IH]; intros s [|i] text d; cbn; try discriminate.
    - intros [= <- <-]. now rewrite Nat.add_0_r.
    - intros H. apply IH in H. now rewrite H, Nat.add_succ_comm. }
  unfold leaf_lines in HL. destruct (metrics_by_task_id (wrapper_metrics (shown at_) inner)) as [|x rest] eqn:EB.
  - injection HL as <- <-. split; [rewrite map_map; apply map_id|].
    intros (t & c & n & Ht & R & En & Hne). exfalso. apply Hne.
    pose proof (by_task_get (N.of_nat t) (wrapper_metrics (shown at_) inner)) as G. rewrite EB, Hof in G. cbn [get_task] in G.
    destruct (in_dec Nat.eq_dec t (seq 0 T)) as [_|N]; [|destruct N; apply in_seq; lia].
    rewrite (Hyes t c n Ht R En) in G. destruct (metrics_of t at_ n); [reflexivity|discriminate].
  - rewrite <- EB in HL. injection HL as <- <-. split; [apply Hcomb|]. intros _. split; [reflexivity|]. intros i text d Hnt.
    apply (Hnth (fun i => Some (get_task (N.of_nat i) (metrics_by_task_id (wrapper_metrics (shown at_) inner)))) texts 0) in Hnt.
    cbn [Nat.add] in Hnt. rewrite by_task_get, Hof in Hnt. split.
    + intros c n Ht R En. destruct (in_dec Nat.eq_dec i (seq 0 T)) as [_|N]; [|destruct N; apply in_seq; lia].
      rewrite (Hyes i c n Ht R En) in Hnt. rewrite Hnt. now destruct (metrics_of i at_ n).
    + intros No. rewrite Hnt. destruct (in_dec Nat.eq_dec i (seq 0 T)) as [Y|_]; [|reflexivity].
      apply in_seq in Y. rewrite (Hnone i); [reflexivity|lia|]. intros c R. apply (No c); [lia|exact R].
Qed.
Print Assumptions C90_lines_by_stage_task.

(** Hence a leaf that all tasks of the stage read, each its own part, is shown rightly: beside the [t]-th part stands what
    the task that read the [t]-th part recorded while reading it. *)
Theorem C90_leaves_outside_unions_partial p T fuel (metrics_of : nat -> pos -> plan -> list metric) store worker shown
    at_ k o vs texts inner :
  (forall t, t < T -> runnable p (mkCtx t T) /\ plain_variants p (mkCtx t T) /\ leaf_variants p (mkCtx t T)) ->
  height p <= fuel ->
  (forall t, t < T -> exists feeds, task_specialized_plan fuel p (mkCtx t T) = Ok (worker t, feeds) /\
     exists tm, collect_task_metrics (metrics_of t) (worker t) (mkCtx t T) = Ok tm /\ store t = Some tm) ->
  (N.of_nat T <= 2 ^ 64)%N ->
  (forall t n, unlabelled (metrics_of t at_ n)) -> (forall l, inner = Some l -> unlabelled l) ->
  (forall t n c, t < T -> runs_at p (mkCtx t T) at_ n c <-> n = PDle k o vs /\ c = mkCtx t T) ->
  List.length vs = T -> List.length texts = T ->
  stage_metrics_rewriter label_metric p T store = Ok shown ->
  forall header lines, leaf_lines (Some (wrapper_metrics (shown at_) inner)) texts = (header, lines) ->
  map fst lines = texts /\
  ((exists t v, nth_error vs t = Some v /\ metrics_of t at_ v <> []) ->
   header = None /\
   forall t v text d, nth_error vs t = Some v -> nth_error lines t = Some (text, d) ->
     nth_error texts t = Some text /\
     d = Some (match metrics_of t at_ v with [] => None | ms => Some (map (label_metric t) ms) end)).
Proof.
  intros Hok Hh Hw HT Hu Hi Hleaf Hv Hlen Hr header lines HL.
  destruct (C90_lines_by_stage_task p T fuel metrics_of store worker shown at_ k o vs texts inner Hok Hh Hw HT Hu Hi) with (header := header) (lines := lines)
    as (Ht & H); try assumption; [intros t n c Hlt R; now apply (Hleaf t n c Hlt) in R|congruence|].
  split; [exact Ht|]. intros (t & v & Ev & Hne).
  assert (Hlt : t < T) by (rewrite <- Hv; apply nth_error_Some; congruence).
  destruct H as (Hh' & HH).
  { exists t, (mkCtx t T), v. split; [exact Hlt|]. split; [now apply (Hleaf t)|]. split; [exact Ev|exact Hne]. }
  split; [exact Hh'|]. intros t' v' text d Ev' El. split; [rewrite <- Ht, nth_error_map, El; reflexivity|].
  assert (Hlt' : t' < T) by (rewrite <- Hv; apply nth_error_Some; congruence).
  apply (proj1 (HH t' text d El) (mkCtx t' T)); [exact Hlt'|now apply (Hleaf t')|exact Ev'].
Qed.
Print Assumptions C90_leaves_outside_unions_partial.

(** In the other format no metric tells its task: all of them are in the first line, none beside the parts. *)
Theorem C90_aggregated_metrics ms texts : unlabelled ms ->
  leaf_lines (Some ms) texts = (Some (Some ms), map (fun text => (text, None)) texts).
Proof.
  intros Hu. unfold leaf_lines. rewrite (proj2 (by_task_nil ms)); [reflexivity|].
  intros m Hm. unfold task_number. now rewrite (unlabelled_task ms m Hu Hm).
Qed.
Print Assumptions C90_aggregated_metrics.

(** The text: a first line, and the [i]-th following line has the number and the text of the [i]-th part, followed by
    its metrics in brackets where metrics are decided for it, by empty brackets where it is decided that there are none,
    and by nothing otherwise. *)
Definition in_brackets (format : list metric -> string) (d : decided) : string :=
  match d with
  | None => ""
  | Some None => ", metrics=[]"
  | Some (Some ms) => ", metrics=[" ++ format ms ++ "]"
  end%string.
Theorem C90_text format trim indent shown texts header lines : leaf_lines shown texts = (header, lines) ->
  let pad := String.concat ""%string (repeat " "%string indent) in
  exists first rest, leaf_text format trim indent shown texts = first :: rest /\
    first = (pad ++ " DistributedLeafExec:" ++ in_brackets format header)%string /\
    List.length rest = List.length texts /\
    forall i text d, nth_error lines i = Some (text, d) ->
      nth_error rest i = Some (pad ++ "   t" ++ show (N.of_nat i) ++ ": " ++ trim text ++ in_brackets format d)%string.
Proof.
  intros E pad. unfold leaf_text. rewrite E.
  assert (Hs : forall d, suffix_of format d = in_brackets format d).
  { intros [[ms|]|]; cbn; [|reflexivity|reflexivity]. destruct (String.eqb_spec (format ms) "") as [->|]; reflexivity. }
  assert (Hl : List.length lines = List.length texts).
  { unfold leaf_lines in E. destruct shown as [ms|]; [destruct (metrics_by_task_id ms)|]; injection E as _ <-;
      rewrite map_length; try reflexivity. rewrite combine_length, seq_length. lia. }
  eexists _, _. split; [reflexivity|]. split; [now rewrite Hs|]. split.
  - rewrite map_length, combine_length, seq_length. lia.
  - intros i text d En. rewrite nth_error_map, nth_error_combine_seq, En. cbn. now rewrite Hs.
Qed.
Print Assumptions C90_text.

Module LeafEx.
Definition rows (n : N) : metric := mkMetric (mkValue 0 "output_rows"%string n) None [].
Definition part (i : nat) : plan := POp (mkOp i 1 None) [].
Definition leaf : plan := PDle 1 (part 9) [part 10; part 20].
Definition texts := ["part a"; "part b"]%string.
(** What a task records: the part with the id [10] has 100 rows, that with the id [20] has 200. *)
Definition recorded (n : plan) : list metric :=
  match n with
  | POp (mkOp 10 _ _) _ => [rows 100]
  | POp (mkOp 20 _ _) _ => [rows 200]
  | _ => []
  end.

(** A filter over the leaf, in two tasks. *)
Definition flat : plan := POp (mkOp 1 1 None) [leaf].
Definition flat_worker (t : nat) : plan := POp (mkOp 1 1 None) [part (if t =? 0 then 10 else 20)].
Example C90_text_case :
  leaf_text (fun ms => String.concat ","%string (map (fun m => show (N.of_nat (List.length (mlabels m)))) ms)) (fun s => s) 2
    (Some (map (label_metric 1) [rows 5])) texts =
  ["   DistributedLeafExec:"; "     t0: part a, metrics=[]"; "     t1: part b, metrics=[1]"]%string.
Proof. reflexivity. Qed.

Definition flat_store (t : nat) := if t <? 2 then Some [[]; [rows (if t =? 0 then 100 else 200)]] else None.

Example C90_flat_met :
  (forall t, t < 2 -> runnable flat (mkCtx t 2) /\ plain_variants flat (mkCtx t 2) /\ leaf_variants flat (mkCtx t 2)) /\
  (forall t, t < 2 -> exists feeds, task_specialized_plan 3 flat (mkCtx t 2) = Ok (flat_worker t, feeds) /\
     exists tm, collect_task_metrics (fun _ => recorded) (flat_worker t) (mkCtx t 2) = Ok tm /\ flat_store t = Some tm) /\
  (forall t n c, t < 2 -> runs_at flat (mkCtx t 2) [0] n c <-> n = leaf /\ c = mkCtx t 2) /\
  exists shown, stage_metrics_rewriter label_metric flat 2 flat_store = Ok shown /\
    leaf_lines (Some (wrapper_metrics (shown [0]) None)) texts =
      (None, [("part a"%string, Some (Some [label_metric 0 (rows 100)])); ("part b"%string, Some (Some [label_metric 1 (rows 200)]))]).
Proof.
  assert (HR : forall t at_ n c, runs_at flat (mkCtx t 2) at_ n c -> In (at_, n, c) [([], flat, mkCtx t 2); ([0], leaf, mkCtx t 2)]).
  { intros t at_ n c H. apply positions_runs in H. exact H. }
  split; [|split; [|split]].
  - intros t Ht. split; [|split].
    + intros at_ n c H. apply HR in H. destruct H as [[= <- <- <-]|[[= <- <- <-]|[]]]; cbn; [exact I|].
      destruct t as [|[|t]]; [| |lia]; cbn; eauto.
    + intros at_ k o vs c H. apply HR in H. destruct H as [[=]|[[= <- <- <- <- <-]|[]]]. repeat constructor.
    + intros at_ k o vs c H. apply HR in H. destruct H as [[=]|[[= <- <- <- <- <-]|[]]]. repeat constructor.
  - intros t Ht. destruct t as [|[|t]]; [| |lia]; (eexists; split; [reflexivity|]; eexists; split; reflexivity).
  - intros t n c Ht. split.
    + intros H. apply HR in H. destruct H as [[=]|[[= <- <-]|[]]]. auto.
    + intros [-> ->]. econstructor; [reflexivity|constructor].
  - eexists. split; reflexivity.
Qed.

(** A union of another leaf, read by the first task, and of this leaf, read by the second and the third task. *)
Definition united : plan := PCiu 1 [[(0, mkCtx 0 1)]; [(1, mkCtx 0 2)]; [(1, mkCtx 1 2)]] [part 5; leaf].
Definition united_worker (t : nat) : plan :=
  PCiu 1 [[(0, mkCtx 0 1)]; [(1, mkCtx 0 2)]; [(1, mkCtx 1 2)]]
    (match t with 0 => [part 5; PEmpty 1] | 1 => [PEmpty 1; part 10] | _ => [PEmpty 1; part 20] end).
Definition united_store (t : nat) :=
  match t with 0 => Some [[]; []] | 1 => Some [[]; [rows 100]] | 2 => Some [[]; [rows 200]] | _ => None end.
End LeafEx.
Import LeafEx.

(** Below a union that gives its children tasks of their own, the number of a part is not the number of the task that reads
    it. Beside the second part stand the 100 rows of the first; the 200 rows of the second part are shown nowhere. *)
Theorem C90_below_unions_refuted : exists p T worker store shown at_ k o vs texts,
  (forall t, t < T -> runnable p (mkCtx t T) /\ plain_variants p (mkCtx t T) /\ leaf_variants p (mkCtx t T)) /\
  (forall t, t < T -> exists feeds, task_specialized_plan (height p) p (mkCtx t T) = Ok (worker t, feeds) /\
     exists tm, collect_task_metrics (fun _ => recorded) (worker t) (mkCtx t T) = Ok tm /\ store t = Some tm) /\
  runs_at p (mkCtx 1 T) at_ (PDle k o vs) (mkCtx 0 2) /\ runs_at p (mkCtx 2 T) at_ (PDle k o vs) (mkCtx 1 2) /\
  (exists a b, vs = [a; b] /\ recorded a = [rows 100] /\ recorded b = [rows 200]) /\
  stage_metrics_rewriter label_metric p T store = Ok shown /\
  leaf_lines (Some (wrapper_metrics (shown at_) None)) texts =
    (None, [("part a"%string, Some None); ("part b"%string, Some (Some [label_metric 1 (rows 100)]))]).
Proof.
  exists united, 3, united_worker, united_store. eexists. exists [1], 1, (part 9), [part 10; part 20], texts.
  split; [|split; [|split; [|split; [|split; [|split]]]]].
  - intros t Ht. assert (HR : forall at_ n c, runs_at united (mkCtx t 3) at_ n c ->
      In (at_, n, c) ([([], united, mkCtx t 3)] ++ match t with 0 => [([0], part 5, mkCtx 0 1)] | 1 => [([1], leaf, mkCtx 0 2)] | _ => [([1], leaf, mkCtx 1 2)] end)).
    { intros at_ n c H. apply positions_runs in H. destruct t as [|[|[|t]]]; [| | |lia]; exact H. }
    destruct t as [|[|[|t]]]; [| | |lia]; (split; [|split]); intros at_;
      [intros n c H|intros k o vs c H|intros k o vs c H|intros n c H|intros k o vs c H|intros k o vs c H|intros n c H|intros k o vs c H|intros k o vs c H];
      apply HR in H; cbn in H; destruct H as [H|[H|[]]]; try discriminate H; injection H; intros; subst; cbn; eauto;
      try (eexists; split; [reflexivity|split; [repeat constructor; cbn; tauto|repeat constructor; cbn; lia]]); repeat constructor.
  - intros t Ht. destruct t as [|[|[|t]]]; [| | |lia]; (eexists; split; [reflexivity|]; eexists; split; reflexivity).
  - eapply runs_union; [reflexivity|left; reflexivity|reflexivity|constructor].
  - eapply runs_union; [reflexivity|left; reflexivity|reflexivity|constructor].
  - eexists _, _. split; [reflexivity|]. split; reflexivity.
  - reflexivity.
  - reflexivity.
Qed.
Print Assumptions C90_below_unions_refuted.
