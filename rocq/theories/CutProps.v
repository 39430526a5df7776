(** Property C98: the rows that a query has returned are rows of its result, whatever has failed or was
    abandoned since, and a LIMIT that is satisfied is right though the rest of the query is not. *)
From Verif Require Import Base NetModel NetSpec NetProofs CiuModel CiuSpec CiuProofs EventsModel EventsSpec JoinModel JoinSpec PlannerModel
  PlannerSpec PlannerProofs ExecModel ExecSpec ExecProofs ExecPasses ExecEnd EventsProps ExecProps
  FetchSpec FetchProofs FetchEnd FetchSort FetchMore FetchProps
  OrderModel OrderSpec OrderProofs OrderEnd OrderProps PoolModel PoolSpec PoolProofs PoolProps DemuxModel DemuxSpec DemuxProofs DemuxProps
  NetRunModel NetRunProofs NetRunDone NetRunProps FaultModel CutModel CutProofs.
From Coq Require Import Sorting.Sorted NArith.

Lemma always_serves {row} (acts : op row -> list row -> list row -> Prop) :
  (forall o l out, acts o l out -> Permutation out (op_fun o l)) -> forall d, serves acts (fun _ => None) true d.
Proof.
  intros Hacts. assert (W : forall o, well_behaved acts (fun _ => None) o) by (intros o l out Ha _; auto).
  intros d. induction d as [k cs IH|w m cs IH|b part q num tasks i IH _] using tree_ind2.
  - cbn [serves]. split; [|apply Forall_map, Forall_forall; assumption]. destruct k as [| | | | | |o]; auto.
    split; [auto|]. split; [discriminate|]. destruct o as [| |m d a| | |]; auto. destruct m; auto.
  - cbn [serves]. apply Forall_map, Forall_forall. assumption.
  - exact IH.
Qed.

Section Queries.
Context {row err : Type}.
Notation tree := (tree row).
Notation table := (nat -> nat -> list row).
Notation readings := (nat -> nat -> reading row).
Variable acts : op row -> list row -> list row -> Prop.
Variables (budget capacity : nat) (bad : nat -> err).
Notation runs_so_far := (runs_so_far budget capacity bad acts false).

(** C98. At every point of every execution of a plan over the network, whatever has failed in its tasks,
    connections and scans, what was read of its partitions is the beginning of what they yield in one of its
    complete executions, and all of it where the end was seen. [f0]: the plan can be executed at all. *)
Theorem C98_executions_are_beginnings (t : tree) n (f0 : table) (o : readings) :
  delivers acts false t n f0 -> runs_so_far t n o ->
  exists f, delivers acts false t n f /\ forall i p, exists rest,
    f i p = seen (o i p) ++ rest /\ (closed (o i p) = true -> rest = []).
Proof. apply goes_on. Qed.

(** C98. Complete executions are among them. *)
Theorem C98_undisturbed_executions (t : tree) n (f : table) : 0 < budget -> 0 < capacity ->
  delivers acts false t n f -> runs_so_far t n (fun i p => mkReading (f i p) true).
Proof. intros HB HC. now apply undisturbed. Qed.

Variable cfg : settings row.
Variable most : nat.
Hypothesis Hmost : max_tasks cfg = Ok most.
Hypothesis Hstatic : dynamic_task_count cfg = false.
Hypothesis Htarget : 0 < target_partitions cfg.
Hypothesis Hsane : sane_handlers cfg.
Hypothesis Hleaf : leaf_handlers cfg.
Hypothesis Hacts : forall o l out, acts o l out -> Permutation out (op_fun o l).

Definition rows_so_far (d : tree) (o : readings) : list row := flat_map (fun p => seen (o 0 p)) (seq 0 (tparts d)).

Lemma beginnings_of_all (d : tree) (f0 : table) (o : readings) :
  delivers acts false d 1 f0 -> runs_so_far d 1 o ->
  exists f, delivers acts false d 1 f /\ exists rest, Permutation (all_rows d 1 f) (rows_so_far d o ++ rest) /\
    ((forall p, p < tparts d -> closed (o 0 p) = true) -> rest = []).
Proof using.
  intros H0 Hrun. destruct (C98_executions_are_beginnings d 1 f0 o H0 Hrun) as (f & Hdf & Hc). exists f. split; [exact Hdf|].
  unfold all_rows, rows_so_far. rewrite consumer_one.
  assert (E : forall l, (forall p, In p l -> p < tparts d) -> exists rest, Permutation (flat_map (f 0) l) (flat_map (fun p => seen (o 0 p)) l ++ rest) /\
    ((forall p, p < tparts d -> closed (o 0 p) = true) -> rest = [])).
  { induction l as [|p l IH]; intros Hl; [exists []; split; [reflexivity|auto]|].
    destruct IH as (rest & H1 & H2); [intros x Hx; apply Hl; now right|].
    destruct (Hc 0 p) as (more & E1 & E2). exists (more ++ rest). split.
    - cbn. rewrite E1, H1, <- !app_assoc. apply Permutation_app_head. rewrite !app_assoc. apply Permutation_app_tail, Permutation_app_comm.
    - intros Hcl. rewrite (E2 (Hcl p (Hl p (or_introl eq_refl)))), (H2 Hcl). reflexivity. }
  apply E. intros p Hp. apply in_seq in Hp. clear - Hp. lia.
Qed.

(** C98. [t] is a plan as in C48 and C89, distributed and executed over the network. The rows that it has
    returned so far, failures and abandoned partitions or not, are among the rows of the original plan, each
    as often as there or less often; and if the ends of all partitions were seen, they are all of them. *)
Theorem C98_rows_so_far t D d :
  typed (partial_reduce cfg) t (@Permutation row) D -> ordinary t -> fed t -> spreadable t ->
  is_round_robin t = false -> every_scan (faithful_scan cfg most) t -> fits most t ->
  create_distributed_plan cfg (TPlan t) = Ok (TDistributed d) ->
  forall f0 o g, delivers acts false d 1 f0 -> runs_so_far d 1 o -> delivers acts false t 1 g ->
    exists rest, Permutation (rows_so_far d o ++ rest) (all_rows t 1 g) /\
      ((forall p, p < tparts d -> closed (o 0 p) = true) -> rest = []).
Proof using Hmost Hstatic Htarget Hsane Hleaf Hacts.
  intros Ht Ho Hf Hsp Hr Hs Hfits H f0 o g H0 Hrun Hg.
  destruct (beginnings_of_all d f0 o H0 Hrun) as (f & Hdf & rest & H1 & H2).
  pose proof (C48_distributed_plan_same_rows cfg most Hmost Hstatic Htarget Hsane Hleaf t D _ Ht Ho Hf Hsp Hr Hs Hfits H) as G. cbn beta iota in G.
  specialize (G f g (delivers_runs acts (fun _ => None) true d (always_serves acts Hacts d) false 1 f Hdf)
    (delivers_runs acts (fun _ => None) true t (always_serves acts Hacts t) false 1 g Hg)).
  exists rest. split; [now rewrite <- H1|exact H2].
Qed.

(** C98. LIMIT [n] of a plan [t0]. What the query has returned is the beginning of [n] rows of [t0], or of all
    of them if there are fewer; if it has ended, it is these, whether or not the partitions and connections
    that it has stopped reading ever end normally. *)
Theorem C98_limit spm n (t0 : tree) D d :
  typed (partial_reduce cfg) t0 (@Permutation row) D -> is_round_robin t0 = false ->
  ordinary t0 -> fed t0 -> spreadable t0 ->
  every_scan (faithful_scan cfg most) t0 -> fits most (Node (KCoalesce spm (Some n)) [t0]) ->
  create_distributed_plan cfg (TPlan (Node (KCoalesce spm (Some n)) [t0])) = Ok (TDistributed d) ->
  forall f0 o g, delivers acts false d 1 f0 -> runs_so_far d 1 o -> runs false t0 1 g ->
    tparts d = 1 /\
    exists rest, window 0 (Some n) (all_rows t0 1 g) (seen (o 0 0) ++ rest) /\ (closed (o 0 0) = true -> rest = []).
Proof using Hmost Hstatic Htarget Hsane Hleaf Hacts.
  intros Ht Hr Ho Hf Hsp Hs Hfits H f0 o g H0 Hrun Hg.
  destruct (C98_executions_are_beginnings d 1 f0 o H0 Hrun) as (f & Hdf & Hc).
  pose proof (delivers_runs acts (fun _ => None) true d (always_serves acts Hacts d) false 1 f Hdf) as Rf.
  destruct (limit_refined cfg most Hmost Hstatic Htarget Hsane Hleaf [] spm (Some n) t0 d Anyhow f) as (E & _);
    auto; [now left|eapply ty_coalesce; eauto|]. split; [exact E|].
  pose proof (C19_limit cfg most Hmost Hstatic Htarget Hsane Hleaf spm n t0 D (TDistributed d) Ht Hr Ho Hf Hsp Hs Hfits H f g Rf Hg) as W.
  rewrite (all_rows_one d f E) in W. destruct (Hc 0 0) as (rest & E1 & E2). exists rest. rewrite <- E1. auto.
Qed.

(** The same with OFFSET [skip]: the rows that the query has ended with are those of [skip] and [fetch]. Those
    it has returned so far are among them. *)
Theorem C98_offset skip fetch spm need (t0 : tree) D d : enough need skip fetch ->
  typed (partial_reduce cfg) t0 (@Permutation row) D -> is_round_robin t0 = false ->
  ordinary t0 -> fed t0 -> spreadable t0 -> every_scan (faithful_scan cfg most) t0 ->
  let t := Node (KOp (OGlobalLimit skip fetch)) [Node (KCoalesce spm need) [t0]] in
  fits most t -> create_distributed_plan cfg (TPlan t) = Ok (TDistributed d) ->
  forall f0 o g, delivers acts false d 1 f0 -> runs_so_far d 1 o -> runs false t0 1 g ->
    tparts d = 1 /\
    exists rest out, Permutation (seen (o 0 0) ++ rest) out /\ window skip fetch (all_rows t0 1 g) out /\
      (closed (o 0 0) = true -> rest = []).
Proof using Hmost Hstatic Htarget Hsane Hleaf Hacts.
  intros He Ht Hr Ho Hf Hsp Hs t Hfits H f0 o g H0 Hrun Hg.
  destruct (C98_executions_are_beginnings d 1 f0 o H0 Hrun) as (f & Hdf & Hc).
  pose proof (delivers_runs acts (fun _ => None) true d (always_serves acts Hacts d) false 1 f Hdf) as Rf.
  destruct (limit_refined cfg most Hmost Hstatic Htarget Hsane Hleaf [KOp (OGlobalLimit skip fetch)] spm need t0 d Anyhow f)
    as (E & _); auto; [right; eauto|eapply ty_coalesce; eauto|]. split; [exact E|].
  destruct (C19_offset cfg most Hmost Hstatic Htarget Hsane Hleaf skip fetch spm need t0 D (TDistributed d) He Ht Hr Ho Hf Hsp Hs Hfits H f g Rf Hg)
    as (out & Hp & W).
  rewrite (all_rows_one d f E) in Hp. destruct (Hc 0 0) as (rest & E1 & E2). exists rest, out. rewrite <- E1. auto.
Qed.
End Queries.

(** C98. Rows come in the order that the plan promises (C88), as far as they have come. *)
Theorem C98_orders_so_far {row err : Type} (acts : op row -> list row -> list row -> Prop) budget capacity (bad : nat -> err)
    single (t : tree row) n f0 o :
  delivers acts false t n f0 -> runs_so_far budget capacity bad acts false t n o ->
  forall le, promises acts single t le -> forall i p, i < n -> p < tparts t -> StronglySorted le (seen (o i p)).
Proof.
  intros H0 Hrun le Hle i p Hi Hp. destruct (C98_executions_are_beginnings acts budget capacity bad t n f0 o H0 Hrun) as (f & Hdf & Hc).
  pose proof (promises_kept acts single t le Hle false n f Hdf i p Hi Hp) as S. destruct (Hc i p) as (rest & E & _). rewrite E in S. clear - S.
  induction (seen (o i p)) as [|x l IH]; [constructor|]. cbn in S. apply StronglySorted_inv in S as [S F]. constructor; [auto|].
  apply Forall_app in F. tauto.
Qed.
Print Assumptions C98_executions_are_beginnings.
Print Assumptions C98_undisturbed_executions.
Print Assumptions C98_rows_so_far.
Print Assumptions C98_limit.
Print Assumptions C98_offset.
Print Assumptions C98_orders_so_far.

(** SELECT … LIMIT 2 on the files of [FetchEx], distributed over three tasks. The first partition of the first
    task yields the two rows. The connection to the second task fails, the third never answers, and the
    second partition of the first task is not looked at. The query ends with the two rows. *)
Module Stopped.
Import ExecProps.Ex FetchEx String.
Local Open Scope string_scope.
Definition exactly (o : op row) (l out : list row) : Prop := out = op_fun o l.
Definition distributed : tree row :=
  Node (KCoalesce None (Some 2)) [Net BCoalesce (UnknownP 6) 77 1 3 (Node (KOp (OLocalLimit 2)) [task_leaf 5 3])].
Definition first_rows : list row := [(0, 5); (1, 5)]%nat.
Definition nothing : reading row := mkReading [] false.
Definition below (t p : nat) : reading row :=
  match t, p with 0, 0 => mkReading first_rows true | _, _ => nothing end.
Definition received (i p : nat) : reading row := below i p.
Definition result (i _ : nat) : reading row := match i with 0 => mkReading first_rows true | _ => nothing end.

Definition call (t q : nat) : request row := mkReq 0 2 t q HNone.
Definition calls := [call 0 0; call 0 1; call 1 0; call 1 1; call 2 0; call 2 1].
Definition sources (t : nat) : list (list (@item (list row) + string)) :=
  match t with 0 => [[inl (mkItem first_rows 16)]; [inr "abandoned"]] | _ => [] end.

Lemma pool_used : exists pl : pool row (nat * nat) string,
  pool_reachable 3 3 pl /\
  pl_calls pl = [(call 0 0, Some (Got 0 0 (0, 0))); (call 0 1, None); (call 1 0, Some (ConnectionFailed "down")); (call 1 1, None);
                 (call 2 0, None); (call 2 1, None)]%nat /\
  pl_answers pl = [(0, inl [(0, 0); (0, 1)]); (1, inr "down")]%nat /\ pl_issued pl = [call 0 0; call 1 0; call 2 0].
Proof.
  eexists. split; [|split; [|split]].
  - unfold pool_reachable, pool_new. cbn [repeat].
    eapply steps_trans; [apply steps_one; apply (call_step 3 _ (call 0 0))|cbn].
    eapply steps_trans; [apply steps_one; apply (call_step 3 _ (call 0 1))|cbn].
    eapply steps_trans; [apply steps_one; apply (call_step 3 _ (call 1 0))|cbn].
    eapply steps_trans; [apply steps_one; apply (call_step 3 _ (call 1 1))|cbn].
    eapply steps_trans; [apply steps_one; apply (call_step 3 _ (call 2 0))|cbn].
    eapply steps_trans; [apply steps_one; apply (call_step 3 _ (call 2 1))|cbn].
    eapply steps_trans; [apply steps_one; apply (resolve_step 3 _ 0 (call 0 0) (inl [(0, 0); (0, 1)]%nat)); reflexivity|cbn].
    eapply steps_trans; [apply steps_one; apply (resolve_step 3 _ 1 (call 1 0) (inr "down")); reflexivity|cbn].
    eapply steps_trans; [apply steps_one; eapply (poll_step 3 _ 0); reflexivity|cbn].
    eapply steps_trans; [apply steps_one; eapply (poll_step 3 _ 2); reflexivity|cbn].
    apply steps_refl.
  - reflexivity.
  - reflexivity.
  - reflexivity.
Qed.

Lemma three_delivers : delivers exactly true (task_leaf 5 3) 3 (three 5).
Proof.
  exists []. split; [constructor|]. intros i p Hi Hp. change (p < 2) in Hp.
  destruct i as [|[|[|]]]; try lia; destruct p as [|[|]]; try lia; (eexists; split; vm_compute; reflexivity).
Qed.

Lemma boundary_stopped :
  boundary_reads 1 1 (fun _ => "bad") BCoalesce (UnknownP 6) 3 2 (fun t => SOther 2 (rows_seen below t)) below 1 received.
Proof.
  intros i Hi. assert (i = 0) as -> by lia. destruct pool_used as (pl & Hr & Hc & Ha & Hiss).
  exists (mkNodeNet pl sources (fun t => InProcess [([inl (mkItem first_rows 16)], true); ([], false)])).
  split; [constructor|split; [|split]]; cbn [nn_pool nn_sources nn_link].
  - exact Hr.
  - exists [[call 0 0]; [call 0 1]; [call 1 0]; [call 1 1]; [call 2 0]; [call 2 1]]. split; [vm_compute; reflexivity|].
    rewrite Hc. cbn. reflexivity.
  - rewrite Ha. intros t l [[= <- <-]|[E|[]]]; [|discriminate]. exists (call 0 0). rewrite Hiss. repeat split; [now left| |].
    + eexists. split; [vm_compute; reflexivity|]. constructor; [reflexivity|]. constructor; [|constructor].
      intros E. destruct (E "abandoned"). now left.
    + repeat constructor; eexists; split; try reflexivity. discriminate.
  - intros r Hin _ j s plan p Hj He Hplan Hp. cbn [nn_pool nn_sources] in *. rewrite Hiss in Hin.
    destruct Hin as [<-|[<-|[<-|[]]]]; [|destruct j; discriminate|destruct j; discriminate].
    destruct j as [|[|j]]; [| |destruct j; discriminate].
    + injection Hplan as <-. cbn in Hp. subst p. discriminate.
    + injection Hj as <-. destruct (He "abandoned"). now left.
  - intros r Hin _ canon j c s Hw Hcj Hs. cbn [nn_pool nn_sources] in *. rewrite Hiss in Hin.
    destruct Hin as [<-|[<-|[<-|[]]]]; [|destruct j; discriminate|destruct j; discriminate].
    vm_compute in Hw. injection Hw as <-. destruct j as [|[|j]]; [| |destruct j; discriminate]; cbn in Hcj, Hs; injection Hcj as <-; injection Hs as <-;
      exists []; reflexivity.
  - intros p Hp. change (p < 6) in Hp. assert (N : forall r, call_so_far (mkNodeNet pl sources (fun t => InProcess [([inl (mkItem first_rows 16)], true); ([], false)])) r []).
    { intros r. now left. }
    destruct p as [|p].
    + cbn. exists [call 0 0], [[inl (mkItem first_rows 16)]], [inl (mkItem first_rows 16)]. split; [vm_compute; reflexivity|].
      split; [|split; [|split]].
      * constructor; [|constructor]. exists 0, 0, 0, (0, 0)%nat. split; [|reflexivity]. unfold outcome_of. cbn. now rewrite Hc.
      * exact (merge_concat [[inl (mkItem first_rows 16)]]).
      * intros e [E|[]]. discriminate.
      * reflexivity.
    + cbn. destruct p as [|[|[|[|[|]]]]]; try lia;
        (eexists; exists [[]], []; split; [vm_compute; reflexivity|]; split; [constructor; [apply N|constructor]|];
         split; [constructor; constructor; [reflexivity|constructor]|]; split; [intros e []|reflexivity]).
Qed.
Lemma executed : runs_so_far 1 1 (fun _ => "bad") exactly false distributed 1 result.
Proof.
  exists [received]. split.
  - constructor; [|constructor]. exists below. split; [|exact boundary_stopped].
    exists [below]. split.
    + constructor; [|constructor]. exists []. split; [constructor|]. intros gs F. inversion F; subst. exists (three 5). split.
      * intros i p. destruct i as [|i]; [destruct p as [|p]|]; cbn [below]; [exists []; auto| |]; eexists; (split; [reflexivity|discriminate]).
      * destruct three_delivers as (fs & F' & H). inversion F'; subst. exact H.
    + intros gs F. apply Forall2_one in F as (g & -> & Hg). exists (fun i p => firstn 2 (g i p)). split.
      * intros i p. specialize (Hg i p). destruct i as [|i]; [destruct p as [|p]|]; cbn [below] in *.
        { destruct Hg as (rest & E & Hr). rewrite E, (Hr eq_refl). exists []. auto. }
        all: eexists; split; [reflexivity|discriminate].
      * intros i p Hi Hp. reflexivity.
  - intros gs F. apply Forall2_one in F as (g & -> & Hg).
    exists (fun i _ => firstn 2 (List.concat (map (g i) (seq 0 6)))). split.
    + intros i p. destruct i as [|i]; cbn [result]; [|eexists; split; [reflexivity|discriminate]].
      destruct (Hg 0 0) as (rest & E & Hr). cbn in E, Hr. rewrite (Hr eq_refl) in E. cbn. rewrite E. exists []. split; [reflexivity|auto].
    + split; [cbn; lia|]. intros i Hi. exists (List.concat (map (g i) (seq 0 6))). split; [apply merge_concat|]. split; [exact I|reflexivity].
Qed.

Definition gathered (i p : nat) : list row := three 5 (p / 2) (p mod 2).
Lemma complete : exists f0, delivers exactly false distributed 1 f0.
Proof.
  exists (fun i _ => firstn 2 (List.concat (map (gathered i) (seq 0 6)))). exists [gathered]. split.
  - constructor; [|constructor]. exists (fun i p => firstn 2 (three 5 i p)). split.
    + exists [three 5]. split; [constructor; [exact three_delivers|constructor]|]. intros i p Hi Hp. reflexivity.
    + intros i p Hi Hp. assert (i = 0) as -> by lia. change (p < 6) in Hp.
      destruct p as [|[|[|[|[|[|]]]]]]; try lia; (eexists; eexists; split; [vm_compute; reflexivity|];
        split; [constructor; [reflexivity|constructor]|]; apply merged; reflexivity).
  - split; [cbn; lia|]. intros i Hi. exists (List.concat (map (gathered i) (seq 0 6))). split; [apply merge_concat|]. split; [exact I|reflexivity].
Qed.
End Stopped.

Example C98_case :
  create_distributed_plan (ExecProps.Ex.cfg false) (TPlan FetchEx.limited) = Ok (TDistributed Stopped.distributed) /\
  (exists f0, delivers Stopped.exactly false Stopped.distributed 1 f0) /\
  runs_so_far 1 1 (fun _ => "bad"%string) Stopped.exactly false Stopped.distributed 1 Stopped.result /\
  (forall o l out, Stopped.exactly o l out -> Permutation out (op_fun o l)) /\
  closed (Stopped.result 0 0) = true /\ seen (Stopped.result 0 0) = [(0, 5); (1, 5)] /\
  forall g, runs false (ExecProps.Ex.file_scan 5) 1 g -> window 0 (Some 2) (all_rows (ExecProps.Ex.file_scan 5) 1 g) [(0, 5); (1, 5)].
Proof.
  pose proof FetchEx.limits_admissible as (A1 & A2 & A3 & A4 & A5 & A6 & A7 & _).
  assert (E : create_distributed_plan (ExecProps.Ex.cfg false) (TPlan FetchEx.limited) = Ok (TDistributed Stopped.distributed)) by (vm_compute; reflexivity).
  assert (Hx : forall o l out, Stopped.exactly o l out -> Permutation out (op_fun o l)) by (intros o l out ->; reflexivity).
  split; [exact E|]. split; [exact Stopped.complete|]. split; [exact Stopped.executed|]. split; [exact Hx|]. split; [reflexivity|]. split; [reflexivity|].
  intros g Hg. destruct Stopped.complete as (f0 & H0).
  destruct (C98_limit Stopped.exactly 1 1 (fun _ => "bad"%string) (ExecProps.Ex.cfg false) 3 eq_refl eq_refl ltac:(cbn; lia) (ExecProps.Ex.sane false) (ExecProps.Ex.leaves false)
    Hx None 2 (ExecProps.Ex.file_scan 5) Anyhow Stopped.distributed A1 A2 A3 A4 A5 A6 A7 E f0 Stopped.result g H0 Stopped.executed Hg) as (_ & rest & W & Hr).
  cbn in W. rewrite (Hr eq_refl) in W. exact W.
Qed.

(** The same without LIMIT: the two rows have been returned when the query fails. *)
Module Failing.
Import ExecProps.Ex FetchEx Stopped String.
Definition whole : tree row := Node (KCoalesce None None) [file_scan 5].
Definition distributed : tree row := Node (KCoalesce None None) [Net BCoalesce (UnknownP 6) 77 1 3 (task_leaf 5 3)].
Definition result (i _ : nat) : reading row := match i with 0 => mkReading first_rows false | _ => nothing end.
Definition all_of (f : nat -> nat -> list row) (i _ : nat) : list row := List.concat (map (f i) (seq 0 6)).

Lemma executed : runs_so_far 1 1 (fun _ => "bad"%string) exactly false distributed 1 result.
Proof.
  exists [received]. split.
  - constructor; [|constructor]. exists below. split; [|exact boundary_stopped].
    exists []. split; [constructor|]. intros gs F. inversion F; subst. exists (three 5). split.
    + intros i p. destruct i as [|i]; [destruct p as [|p]|]; cbn [below]; [exists []; auto| |]; eexists; (split; [reflexivity|discriminate]).
    + destruct three_delivers as (fs & F' & H). inversion F'; subst. exact H.
  - intros gs F. apply Forall2_one in F as (g & -> & Hg). exists (all_of g). split.
    + intros i p. destruct i as [|i]; cbn [result]; [|eexists; split; [reflexivity|discriminate]].
      destruct (Hg 0 0) as (rest & E & Hr). cbn in E, Hr. rewrite (Hr eq_refl) in E. unfold all_of. cbn. rewrite E. eexists. split; [reflexivity|discriminate].
    + split; [cbn; lia|]. intros i Hi. exists (all_of g i 0). split; [apply merge_concat|]. split; [exact I|reflexivity].
Qed.
Lemma complete : exists f0, delivers exactly false distributed 1 f0.
Proof.
  exists (all_of gathered). exists [gathered]. split.
  - constructor; [|constructor]. exists (three 5). split; [exact three_delivers|].
    intros i p Hi Hp. assert (i = 0) as -> by lia. change (p < 6) in Hp.
    destruct p as [|[|[|[|[|[|]]]]]]; try lia; (eexists; eexists; split; [vm_compute; reflexivity|];
      split; [constructor; [reflexivity|constructor]|]; apply merged; reflexivity).
  - split; [cbn; lia|]. intros i Hi. exists (all_of gathered i 0). split; [apply merge_concat|]. split; [exact I|reflexivity].
Qed.
End Failing.

Example C98_failing_case :
  runs_so_far 1 1 (fun _ => "bad"%string) Stopped.exactly false Failing.distributed 1 Failing.result /\
  closed (Failing.result 0 0) = false /\ rows_so_far Failing.distributed Failing.result = [(0, 5); (1, 5)] /\
  forall g, delivers Stopped.exactly false Failing.whole 1 g ->
    exists rest, Permutation ([(0, 5); (1, 5)] ++ rest) (all_rows Failing.whole 1 g).
Proof.
  pose proof FetchEx.limits_admissible as (A1 & A2 & A3 & A4 & A5 & A6 & _).
  split; [exact Failing.executed|]. split; [reflexivity|]. split; [reflexivity|].
  intros g Hg. destruct Failing.complete as (f0 & H0).
  assert (Hx : forall o l out, Stopped.exactly o l out -> Permutation out (op_fun o l)) by (intros o l out ->; reflexivity).
  destruct (C98_rows_so_far Stopped.exactly 1 1 (fun _ => "bad"%string) (ExecProps.Ex.cfg false) 3 eq_refl eq_refl ltac:(cbn; lia) (ExecProps.Ex.sane false)
    (ExecProps.Ex.leaves false) Hx Failing.whole Anyhow Failing.distributed) with (f0 := f0) (o := Failing.result) (g := g) as (rest & W & _).
  - eapply ty_coalesce; eauto.
  - cbn. repeat constructor.
  - cbn. repeat split; repeat constructor; discriminate.
  - cbn. repeat split; repeat constructor; cbn; lia.
  - reflexivity.
  - cbn. repeat constructor. apply ExecProps.Ex.scans.
  - vm_compute. repeat constructor.
  - vm_compute. reflexivity.
  - exact H0.
  - exact Failing.executed.
  - exact Hg.
  - exists rest. exact W.
Qed.
