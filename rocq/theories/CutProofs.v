(** Proofs about executions cut short. *)
From Verif Require Import Base NetModel NetSpec NetProofs CiuModel CiuProofs EventsModel PlannerModel PlannerSpec PlannerProofs
  ExecModel ExecSpec ExecProofs OrderModel OrderProofs FetchProofs PoolModel PoolSpec PoolProofs PoolProps
  DemuxModel DemuxSpec DemuxProofs DemuxProps NetRunModel NetRunProofs NetRunDone FaultModel FaultProofs CutModel.
From Coq Require Import FunctionalExtensionality.

(** * Reading more of the inputs of a head adds to its outputs *)
Section Heads.
Context {row : Type}.

Lemma flat_map_more {A B} (F F' : A -> list B) l : (forall a, In a l -> exists m, F' a = F a ++ m) ->
  exists more, Permutation (flat_map F' l) (flat_map F l ++ more) /\
    (List.length l <= 1 -> flat_map F' l = flat_map F l ++ more).
Proof.
  induction l as [|a l IH]; intros H; [exists []; now split|].
  destruct (H a (or_introl eq_refl)) as (m & E). destruct IH as (more & H1 & _); [intros x Hx; apply H; now right|].
  exists (m ++ more). cbn. rewrite E. split.
  - rewrite H1, <- !app_assoc. apply Permutation_app_head. rewrite !app_assoc. apply Permutation_app_tail. apply Permutation_app_comm.
  - intros L. destruct l; [|cbn in L; lia]. cbn in *. apply Permutation_nil in H1. subst more. now rewrite !app_nil_r.
Qed.

Lemma indexed_app {A} (a b : list A) : exists c, indexed (a ++ b) = indexed a ++ c.
Proof.
  unfold indexed. rewrite app_length, seq_app. exists (combine (seq (0 + List.length a) (List.length b)) b).
  assert (G : forall (x y : list nat) (a b : list A), List.length x = List.length a -> combine (x ++ y) (a ++ b) = combine x a ++ combine y b).
  { intros x y. induction x as [|i x IH]; intros [|v a'] b' L; cbn in *; try discriminate; [reflexivity|]. f_equal. apply IH. lia. }
  apply G. apply seq_length.
Qed.
Lemma indexed_map_seq {A} (f : nat -> A) P : indexed (map f (seq 0 P)) = map (fun j => (j, f j)) (seq 0 P).
Proof.
  unfold indexed. rewrite map_length, seq_length. induction (seq 0 P) as [|j l IH]; cbn; [reflexivity|]. now rewrite IH.
Qed.

Definition robin (n P q j : nat) (rows : list row) : list row :=
  map snd (filter (fun '(k, _) => (j * n / P + k) mod n =? q) (indexed rows)).
Lemma robin_more n P q j (a b : list row) : exists m, robin n P q j (a ++ b) = robin n P q j a ++ m.
Proof. unfold robin. destruct (indexed_app a b) as (c & ->). rewrite filter_app, map_app. eauto. Qed.

Lemma inputs_all P (run : nat -> list row) : mapM (exec (SOther P run)) (seq 0 P) = Ok (map run (seq 0 P)).
Proof.
  apply mapM_ok_intro. intros p Hp. apply in_seq in Hp. cbn [exec]. destruct (Nat.ltb_spec p P); [reflexivity|lia].
Qed.
(** A RepartitionExec hands every input partition out on its own. *)
Lemma exec_repart part P (run : nat -> list row) q :
  exec (SRepart part (SOther P run)) q =
  match part with
  | HashP h n => if q <? n then Ok (flat_map (fun p => filter (fun r => h r mod n =? q) (run p)) (seq 0 P))
                 else Panic "repartition channel already taken"
  | RoundRobin n => if q <? n then Ok (flat_map (fun p => robin n P q p (run p)) (seq 0 P))
                    else Panic "repartition channel already taken"
  | RangeP _ | UnknownP _ => Err "unsupported repartitioning"
  end.
Proof.
  pose proof (inputs_all P run) as E. cbn [exec parts] in *. rewrite E. clear E. cbn [bind]. destruct part as [n|h n|n|n]; try reflexivity.
  - destruct (q <? n); [|reflexivity]. f_equal. rewrite indexed_map_seq. rewrite map_length, seq_length.
    induction (seq 0 P) as [|p l IH]; cbn; [reflexivity|]. f_equal. exact IH.
  - destruct (q <? n); [|reflexivity]. f_equal. induction (seq 0 P) as [|p l IH]; cbn; [reflexivity|]. now rewrite filter_app, IH.
Qed.

Definition more_of (exact : bool) (P : nat) (c c' : list row) : Prop :=
  exists more, Permutation c' (c ++ more) /\ (exact = true \/ P <= 1 -> c' = c ++ more).
Definition is_repart_head (h : head row) : bool := match h with HRepartition _ => true | _ => false end.

(** One partition of a plan [plan] with the head [h] on top of partitions of which [run] was read, and of
    the same plan when [run'] will have been read. *)
Lemma exec_more h P (run run' : nat -> list row) plan plan' q c :
  (forall p, exists m, run' p = run p ++ m) ->
  insert_head h (SOther P run) = Ok plan -> insert_head h (SOther P run') = Ok plan' -> exec plan q = Ok c ->
  exists c', exec plan' q = Ok c' /\ more_of (negb (is_repart_head h)) P c c'.
Proof.
  intros Hm. destruct h as [|out|part]; unfold insert_head; cbn [strip_head parts].
  - intros [= <-] [= <-]. cbn [exec]. destruct (q <? P); [|discriminate]. intros [= <-]. eexists. split; [reflexivity|].
    destruct (Hm q) as (m & ->). exists m. auto.
  - destruct (Nat.eqb_spec P 0); [discriminate|]. intros [= <-] [= <-]. cbn [exec parts]. destruct (Nat.eqb_spec P 0); [contradiction|].
    destruct (q mod P <? P); [|discriminate]. intros [= <-]. eexists. split; [reflexivity|].
    destruct (Hm (q mod P)) as (m & ->). exists m. auto.
  - intros [= <-] [= <-]. rewrite !exec_repart. destruct part as [n|hh n|n|n]; try discriminate.
    all: destruct (q <? n); [|discriminate]; intros [= <-]; eexists; (split; [reflexivity|]); unfold more_of; cbn [negb is_repart_head].
    + destruct (flat_map_more (fun p => robin n P q p (run p)) (fun p => robin n P q p (run' p)) (seq 0 P))
        as (more & H1 & H2); [intros p _; destruct (Hm p) as (m & ->); apply robin_more|].
      exists more. split; [exact H1|]. intros [E|L]; [discriminate|]. apply H2. now rewrite seq_length.
    + destruct (flat_map_more (fun p => filter (fun r => hh r mod n =? q) (run p)) (fun p => filter (fun r => hh r mod n =? q) (run' p)) (seq 0 P))
        as (more & H1 & H2); [intros p _; destruct (Hm p) as (m & ->); rewrite filter_app; eauto|].
      exists more. split; [exact H1|]. intros [E|L]; [discriminate|]. apply H2. now rewrite seq_length.
Qed.

(** It depends on the partitions that it reads only. *)
Lemma exec_reads h P (run run' : nat -> list row) plan plan' q :
  insert_head h (SOther P run) = Ok plan -> insert_head h (SOther P run') = Ok plan' ->
  (forall p, head_reads plan q p -> run' p = run p) -> exec plan' q = exec plan q.
Proof.
  destruct h as [|out|part]; unfold insert_head; cbn [strip_head parts].
  - intros [= <-] [= <-] H. cbn [exec]. destruct (q <? P); [|reflexivity]. f_equal. apply H. reflexivity.
  - destruct (Nat.eqb_spec P 0); [discriminate|]. intros [= <-] [= <-] H. cbn [exec parts]. destruct (Nat.eqb_spec P 0); [contradiction|].
    destruct (q mod P <? P); [|reflexivity]. f_equal. apply H. reflexivity.
  - intros [= <-] [= <-] H. rewrite !exec_repart. cbn [head_reads parts] in H.
    assert (E : forall F : nat -> list row -> list row, flat_map (fun p => F p (run' p)) (seq 0 P) = flat_map (fun p => F p (run p)) (seq 0 P)).
    { intros F. rewrite !flat_map_concat_map. f_equal. apply map_ext_in. intros p Hp. apply in_seq in Hp. now rewrite H by lia. }
    destruct part as [n|hh n|n|n]; try reflexivity; destruct (q <? n); try reflexivity; f_equal.
    + apply (E (robin n P q)).
    + apply (E (fun _ rows => filter (fun r => hh r mod n =? q) rows)).
Qed.

Lemma insert_any h P (run run' : nat -> list row) plan : insert_head h (SOther P run) = Ok plan ->
  exists plan', insert_head h (SOther P run') = Ok plan' /\ parts plan' = parts plan.
Proof.
  destruct h as [|out|part]; unfold insert_head; cbn [strip_head parts]; try (intros [= <-]; eexists; split; reflexivity).
  destruct (P =? 0); [discriminate|]. intros [= <-]. eexists. split; reflexivity.
Qed.
Lemma exec_any h P (run run' : nat -> list row) plan plan' q c :
  insert_head h (SOther P run) = Ok plan -> insert_head h (SOther P run') = Ok plan' -> exec plan q = Ok c ->
  exists c', exec plan' q = Ok c'.
Proof.
  destruct h as [|out|part]; unfold insert_head; cbn [strip_head parts].
  - intros [= <-] [= <-]. cbn [exec]. destruct (q <? P); [eauto|discriminate].
  - destruct (P =? 0) eqn:E; [discriminate|]. intros [= <-] [= <-]. cbn [exec parts]. rewrite E. destruct (q mod P <? P); [eauto|discriminate].
  - intros [= <-] [= <-]. rewrite !exec_repart. destruct part as [n|hh n|n|n]; try discriminate; destruct (q <? n); try discriminate; eauto.
Qed.

Lemma mapM_any {A B} (f f' : A -> Res B) l ys : mapM f l = Ok ys -> (forall a y, In a l -> f a = Ok y -> exists y', f' a = Ok y') ->
  exists ys', mapM f' l = Ok ys'.
Proof.
  revert ys. induction l as [|a l IH]; intros ys; cbn; [eauto|]. destruct (f a) as [y| |] eqn:Ea; cbn; try discriminate.
  destruct (mapM f l) as [zs| |] eqn:El; cbn; try discriminate. intros _ H.
  destruct (H a y (or_introl eq_refl) Ea) as (y' & ->). destruct (IH zs eq_refl) as (zs' & ->); [intros b z Hb; apply H; now right|].
  cbn. eauto.
Qed.
Lemma mapM_nth {A B} (f : A -> Res B) l ys : mapM f l = Ok ys -> forall j a, nth_error l j = Some a -> exists y, f a = Ok y /\ nth_error ys j = Some y.
Proof.
  intros H. apply mapM_ok_inv in H. intros j a Ha. apply Forall2_nth in H as [L H].
  destruct (nth_error ys j) as [y|] eqn:Ey; [|apply nth_error_None in Ey; assert (j < List.length l) by (apply nth_error_Some; congruence); lia].
  exists y. eauto.
Qed.

(** What a call yields: the rows of its partition. *)
Lemma pool_execute_inv (producers : nat -> splan row) P run r c workers :
  strip_head (producers (rq_task r)) = SOther P run ->
  pool_execute producers workers workers r = Ok c ->
  rq_task r < workers /\ exists plan, insert_head (rq_head r) (producers (rq_task r)) = Ok plan /\
    insert_head (rq_head r) (SOther P run) = Ok plan /\ exec plan (rq_target r) = Ok c.
Proof.
  intros Hs. unfold pool_execute. destruct (Nat.leb_spec workers (rq_task r)); [discriminate|].
  unfold worker_execute_task. destruct (insert_head (rq_head r) (producers (rq_task r))) as [plan| |] eqn:Ei; cbn [bind]; try discriminate.
  destruct (mapM _ _) as [streams| |] eqn:Em; cbn [bind]; try discriminate.
  destruct (Nat.ltb_spec (rq_target r) (rq_start r)); [discriminate|].
  destruct (nth_error streams (rq_target r - rq_start r)) as [s|] eqn:En; [|discriminate]. intros [= <-].
  split; [assumption|]. exists plan. split; [reflexivity|]. split; [unfold insert_head in *; now rewrite Hs in Ei|].
  assert (Ha : nth_error (seq (rq_start r) (rq_end r - rq_start r)) (rq_target r - rq_start r) = Some (rq_target r)).
  { apply mapM_ok_inv in Em. apply Forall2_nth in Em as [L _]. rewrite seq_length in L.
    assert (rq_target r - rq_start r < List.length streams) by (apply nth_error_Some; congruence).
    rewrite (nth_error_nth' _ 0) by (rewrite seq_length; lia). rewrite seq_nth by lia. f_equal. lia. }
  destruct (mapM_nth _ _ _ Em _ _ Ha) as (y & Ey & En'). rewrite En in En'. injection En' as <-.
  destruct (parts plan <=? rq_target r); [discriminate|exact Ey].
Qed.
Lemma pool_execute_any (producers producers' : nat -> splan row) P run run' r c workers :
  strip_head (producers (rq_task r)) = SOther P run -> strip_head (producers' (rq_task r)) = SOther P run' ->
  pool_execute producers workers workers r = Ok c -> exists c', pool_execute producers' workers workers r = Ok c'.
Proof.
  intros Hs Hs'. unfold pool_execute. destruct (workers <=? rq_task r); [discriminate|].
  unfold worker_execute_task. destruct (insert_head (rq_head r) (producers (rq_task r))) as [plan| |] eqn:Ei; cbn [bind]; try discriminate.
  assert (Ei0 : insert_head (rq_head r) (SOther P run) = Ok plan) by (unfold insert_head in *; now rewrite Hs in Ei).
  destruct (insert_any _ _ _ run' _ Ei0) as (plan' & Ei' & Ep).
  assert (E : insert_head (rq_head r) (producers' (rq_task r)) = Ok plan') by (unfold insert_head in *; now rewrite Hs').
  rewrite E. cbn [bind]. destruct (mapM _ _) as [streams| |] eqn:Em; cbn [bind]; try discriminate.
  destruct (mapM_any _ (fun partition => if parts plan' <=? partition then Err "partition not available" else exec plan' partition) _ _ Em) as (streams' & Em').
  { intros a y _. rewrite Ep. destruct (parts plan <=? a); [discriminate|]. intros Ey. exact (exec_any _ _ run run' plan plan' a y Ei0 Ei' Ey). }
  rewrite Em'. cbn [bind]. destruct (rq_target r <? rq_start r); [discriminate|].
  destruct (nth_error streams (rq_target r - rq_start r)) eqn:En; [|discriminate]. intros _.
  destruct (nth_error streams' (rq_target r - rq_start r)) eqn:En'; [eauto|]. exfalso.
  apply nth_error_None in En'. assert (rq_target r - rq_start r < List.length streams) by (apply nth_error_Some; congruence).
  apply mapM_ok_inv in Em, Em'. apply Forall2_nth in Em as [L _]. apply Forall2_nth in Em' as [L' _]. lia.
Qed.

Lemma sent_more b P (c c' x : list row) : sent b P c x -> more_of (match b with BShuffle => false | _ => true end) P c c' ->
  exists rest, sent b P c' (x ++ rest).
Proof.
  intros Hs (more & H1 & H2). exists more. destruct b; cbn in *.
  - destruct Hs as [Hs Hs']. split; [rewrite H1; now apply Permutation_app_tail|]. intros L. rewrite (Hs' L). symmetry. apply H2. now right.
  - rewrite Hs. symmetry. apply H2. now left.
  - rewrite Hs. symmetry. apply H2. now left.
Qed.
End Heads.

(** * Boundaries *)
Section Boundary.
Context {row err : Type}.
Notation message := (@item (list row) + err)%type.
Notation table := (nat -> nat -> list row).
Notation readings := (nat -> nat -> reading row).
Variables (budget capacity : nat) (bad : nat -> err).
Notation node_history := (node_history budget capacity bad).
Notation boundary_reads := (boundary_reads budget capacity bad).

Lemma merge_more {A} (gots : list (list A)) out : merge_of gots out ->
  forall streams, Forall2 (fun g s => exists rest, s = g ++ rest) gots streams -> exists rest, merge_of streams (out ++ rest).
Proof.
  induction 1 as [ss H|pre x s post out H IH]; intros streams F.
  - exists (List.concat streams). cbn. apply merge_concat.
  - apply Forall2_app_inv_l in F as (pre' & post' & F1 & F2 & ->). inversion F2 as [|? y ? post'' (rest & ->) F3]; subst.
    destruct (IH (pre' ++ (s ++ rest) :: post'')) as (r & Hr); [apply Forall2_app; [exact F1|constructor; [eauto|exact F3]]|].
    exists r. cbn. now apply merge_step.
Qed.

Lemma rows_of_app (a b : list message) : rows_of (a ++ b) = rows_of a ++ rows_of b.
Proof. unfold rows_of. apply flat_map_app. Qed.

(** What was taken of a stream of a link without an error is the beginning of what the worker sends. *)
Lemma taken_is_sent b (plan : splan row) P r sources l i read e got :
  link_reachable budget capacity bad b P plan r sources l -> (forall e reads, l <> Refused e reads) ->
  link_read l i = Some (read, e) -> conn_prefix got read -> error_free got ->
  exists s, nth_error sources i = Some s /\ conn_prefix got s.
Proof.
  intros Hl Hnr Hr (tail & Ht) He. destruct l as [reads|k|e' reads]; [| |now destruct (Hnr e' reads)]; cbn in Hl, Hr.
  - destruct Hl as [_ HR]. destruct (Forall2_nth_error_r _ _ _ HR _ _ Hr) as (s & Hs & rest & E & _). cbn in E.
    exists s. split; [exact Hs|]. exists (tail ++ rest). rewrite app_assoc, <- Ht. exact E.
  - destruct Hl as [_ HR]. destruct (nth_error (k_parts k) i) as [p|] eqn:Hp; [|discriminate]. cbn in Hr. injection Hr as <- Hend.
    assert (HS : exists S, nth_error sources i = Some S).
    { pose proof (inv_len _ _ _ (inv_reachable _ _ _ _ _ _ HR)) as HL. destruct (nth_error sources i) eqn:E; [eauto|].
      apply nth_error_None in E. rewrite <- HL in E. assert (i < List.length (k_parts k)) by (apply nth_error_Some; congruence). lia. }
    destruct HS as [S HS]. exists S. split; [exact HS|].
    destruct (C30_own_messages_in_order _ _ _ _ _ _ _ _ _ HR HS Hp) as (A & (R & HA) & EA & HG).
    assert (G : exists t, A = got ++ t).
    { destruct HG as [HG|(e' & HG & _)]; rewrite HG in Ht; [eauto|].
      destruct tail as [|m tail] using rev_ind.
      - rewrite app_nil_r in Ht. exfalso. apply (He e'). rewrite <- Ht. apply in_or_app. right. now left.
      - rewrite app_assoc in Ht. apply app_inj_tail in Ht as [Ht _]. eauto. }
    destruct G as (t & ->). exists (t ++ R). now rewrite app_assoc.
Qed.

Lemma call_begins b (part : partitioning row) tasks P producers ctx ps h r got :
  NoDup ps -> (forall p, In p ps -> p < partition_count part) ->
  node_history b part tasks P producers ctx ps h -> streams_so_far b P producers h ->
  call_so_far h r got -> error_free got ->
  rows_of got = [] \/
  exists c rest, pool_execute producers tasks tasks r = Ok c /\ sent b P c (rows_of got ++ rest).
Proof.
  intros Hn Hps Hh Hsf [->|(c & t & i & s & read & e & Ho & Hr & Hpre)] He; [now left|]. destruct Hh as [Hpool (calls & Hcalls & Hperm) Hans].
  destruct (C29_right_stream _ _ _ Hpool _ _ _ _ _ Ho) as (-> & Hle & -> & l & Hl & Hs).
  destruct (Hans _ _ Hl) as (q & Hq & Ht & Hlen & -> & Hlink & Hu).
  pose proof (pool_ok_reachable _ _ _ Hpool) as I. destruct (checks_ok_reachable _ _ _ Hpool) as (Hn' & _ & _ & Hsub).
  pose proof (fitting_perm _ _ Hperm (boundary_calls_fit _ _ _ _ _ _ Hn Hps Hcalls)) as (F1 & F2 & _).
  assert (Hrin : In r (map fst (pl_calls (nn_pool h)))) by (apply nth_error_In in Ho; apply (in_map fst) in Ho; exact Ho).
  destruct (F1 q r (Hsub _ Hq) Hrin Ht) as (E1 & E2 & E3).
  assert (Hlt : rq_task r < tasks).
  { destruct (ok_issued_slot _ _ I _ Hq) as (g & Hg & _). apply slot_inv in Hg. rewrite <- Hn', <- Ht. apply nth_error_Some. congruence. }
  assert (Hj : rq_target r - rq_start r < List.length (nn_sources h (rq_task r))).
  { assert (HN : nth_error (map (Datatypes.pair (rq_task r)) (seq 0 (List.length (nn_sources h (rq_task r))))) (rq_target r - rq_start r) <> None) by congruence.
    apply nth_error_Some in HN. now rewrite map_length, seq_length in HN. }
  assert (Hsi : s = (rq_task r, rq_target r - rq_start r)).
  { rewrite nth_error_map in Hs. rewrite (nth_error_nth' _ 0) in Hs by (now rewrite seq_length). rewrite seq_nth in Hs by assumption. now injection Hs as <-. }
  subst s. cbn [fst snd] in Hr.
  destruct (nn_link h (rq_task r)) as [reads|k|e' reads] eqn:El.
  3: { left. cbn in Hlink, Hr. destruct Hlink as [_ HF]. rewrite Forall_forall in HF. apply nth_error_In in Hr. destruct Hpre as (tail & Hpre).
       destruct (HF _ Hr) as [E|E]; [injection E as -> _; symmetry in Hpre; apply app_eq_nil in Hpre as [-> _]; reflexivity|].
       cbn in E. rewrite E in Hpre. destruct got as [|m got]; [reflexivity|]. injection Hpre as <- _. destruct (He e'). now left. }
  all: right; rewrite <- El in Hlink, Hr.
  all: assert (Hnr : forall e reads, nn_link h (rq_task r) <> Refused e reads) by (rewrite El; discriminate).
  all: destruct (taken_is_sent _ _ _ _ _ _ _ _ _ _ Hlink Hnr Hr Hpre He) as (s & Hs' & tail & ->).
  all: assert (HW : exists canon c, worker_execute_task (producers (rq_task r)) (rq_head r) (rq_start r) (rq_end r) = Ok canon /\
         nth_error canon (rq_target r - rq_start r) = Some c).
  1, 3: rewrite El in Hlink; destruct Hlink as [(canon & Hw & HF) _]; rewrite E1, E2, E3 in Hw;
        destruct (Forall2_nth_error_r _ _ _ HF _ _ Hs') as (c0 & Hc & _); exists canon, c0; auto.
  all: destruct HW as (canon & c0 & Hw & Hc).
  all: destruct (Hsf q Hq) with (canon := canon) (j := rq_target r - rq_start r) (c := c0) (s := got ++ tail) as (rest & Hrest);
    rewrite ?Ht, ?E1, ?E2, ?E3; try assumption.
  all: rewrite rows_of_app, <- app_assoc in Hrest; exists c0, (rows_of tail ++ rest); split; [|exact Hrest].
  all: unfold pool_execute; destruct (Nat.leb_spec tasks (rq_task r)); [lia|]; rewrite Hw; cbn [bind];
    destruct (Nat.ltb_spec (rq_target r) (rq_start r)); [lia|]; now rewrite Hc.
Qed.

Lemma boundary_heads b (part : partitioning row) tasks ctx p reqs : b <> BShuffle ->
  boundary_requests b part tasks ctx p = Ok reqs -> forall r, In r reqs -> is_repart_head (rq_head r) = false.
Proof.
  intros Hb E r Hr. destruct b; [now destruct Hb| |]; cbn [boundary_requests] in E.
  - injection E as <-. unfold broadcast_requests in Hr. apply in_map_iff in Hr as (t & <- & _). reflexivity.
  - destruct (coalesce_request _ ctx p) as [[q|]|e|e] eqn:Eq; cbn [bind] in E; try discriminate; injection E as <-; [|destruct Hr].
    destruct Hr as [<-|[]]. unfold coalesce_request in Eq. repeat lazymatch type of Eq with
      | context [bind ?x _] => destruct x; cbn [bind] in Eq; try discriminate
      | context [if ?x then _ else _] => destruct x; try discriminate
      | context [match ?x with _ => _ end] => destruct x; try discriminate
      end.
    all: now injection Eq as <-.
Qed.

Lemma completes_self (r : reading row) : completes r (seen r).
Proof. exists []. split; [now rewrite app_nil_r|auto]. Qed.

(** Whatever the partitions below go on to yield, what was read of a boundary is the beginning of what it
    would yield. [f0] is there because the requests must be possible ones. *)
Lemma boundary_goes_on b (part : partitioning row) tasks P (mk : nat -> (nat -> list row) -> splan row) below n o g g0 f0 :
  (forall t run, strip_head (mk t run) = SOther P run) ->
  boundary_delivers b part tasks P (fun t => mk t (g0 t)) n f0 ->
  boundary_reads b part tasks P (fun t => mk t (rows_seen below t)) below n o ->
  all_complete below g ->
  exists f, all_complete o f /\ boundary_delivers b part tasks P (fun t => mk t (g t)) n f.
Proof.
  intros Hmk H0 H Hg.
  assert (G : forall i p, i < n -> p < partition_count part -> exists l, completes (o i p) l /\
    exists canon streams, boundary_execute b part tasks (fun t => mk t (g t)) (mkCtx i n) p = Ok canon /\
      Forall2 (sent b P) canon streams /\ merge_of streams l).
  { intros i p Hi Hp. destruct (H i Hi) as (h & Hh & Hb & Hsf & Hread). specialize (Hread p Hp).
    destruct (H0 i p Hi Hp) as (canon0 & streams0 & E0 & _). rewrite boundary_execute_requests in E0.
    destruct (boundary_requests b part tasks (mkCtx i n) p) as [reqs| |] eqn:Ereq; cbn [bind] in E0; try discriminate.
    assert (Hok : forall r, In r reqs -> exists c, pool_execute (fun t => mk t (g t)) tasks tasks r = Ok c).
    { intros r Hr. apply In_nth_error in Hr as (j & Hj). destruct (mapM_nth _ _ _ E0 _ _ Hj) as (c & Ec & _).
      eapply pool_execute_any; [| |exact Ec]; apply Hmk. }
    assert (Hseq : forall p, In p (seq 0 (partition_count part)) -> p < partition_count part) by (intros x Hx; apply in_seq in Hx; lia).
    assert (Hrun : forall t p, exists m, g t p = rows_seen below t p ++ m).
    { intros t q. destruct (Hg t q) as (m & E & _). exists m. exact E. }
    rewrite boundary_execute_requests, Ereq. cbn [bind].
    destruct (closed (o i p)) eqn:Ecl.
    - destruct Hread as (reqs' & gots & out & Ereq' & HF & Hm & He & Eo). rewrite Ereq in Ereq'. injection Ereq' as <-.
      exists (seen (o i p)). split; [apply completes_self|]. rewrite Eo.
      pose proof (merge_error_free _ _ Hm He) as Hef.
      assert (GG : exists canon, mapM (pool_execute (fun t => mk t (g t)) tasks tasks) reqs = Ok canon /\ Forall2 (sent b P) canon (map rows_of gots)).
      { clear - Hh Hb HF Hef Hok Hmk Hg Hseq. induction HF as [|r got reqs gots Hr HF IH]; [exists []; split; [reflexivity|constructor]|].
        destruct IH as (canon & E & F); try (intros x Hx; first [apply Hef; now right|apply Hok; now right]).
        assert (Heg : error_free got) by (apply Hef; now left).
        destruct (call_yields _ _ _ b part tasks P _ _ _ h r got (seq_NoDup _ _) Hseq Hh Hr Heg) as (c & Ec & Hsent).
        destruct (pool_execute_inv _ P _ r c tasks (Hmk _ _) Ec) as (_ & plan & Ei & Ei' & Ex).
        destruct (Hok r (or_introl eq_refl)) as (c' & Ec').
        destruct (pool_execute_inv _ P _ r c' tasks (Hmk _ _) Ec') as (_ & plan' & _ & Ei2 & Ex').
        assert (c' = c) as ->.
        { assert (E2 : exec plan' (rq_target r) = exec plan (rq_target r)); [|congruence].
          eapply exec_reads; [exact Ei'|exact Ei2|]. intros q Hq.
          pose proof (call_backed _ _ _ b part tasks P _ _ _ h (ends below) r got plan q (seq_NoDup _ _) Hseq Hh Hb Hr Heg Ei Hq) as Hcl.
          unfold ends in Hcl. destruct (closed (below (rq_task r) q)) eqn:E3; [|congruence].
          destruct (Hg (rq_task r) q) as (m & E4 & E5). rewrite (E5 E3), app_nil_r in E4. exact E4. }
        exists (c :: canon). cbn. rewrite Ec', E. split; [reflexivity|]. constructor; assumption. }
      destruct GG as (canon & E & F). exists canon, (map rows_of gots). split; [exact E|]. split; [exact F|]. now apply merge_rows.
    - destruct Hread as (reqs' & gots & out & Ereq' & HF & Hm & He & Eo). rewrite Ereq in Ereq'. injection Ereq' as <-.
      pose proof (merge_error_free _ _ Hm He) as Hef. pose proof (boundary_heads b part tasks (mkCtx i n) p reqs) as Hheads.
      assert (GG : exists canon streams, mapM (pool_execute (fun t => mk t (g t)) tasks tasks) reqs = Ok canon /\ Forall2 (sent b P) canon streams /\
        Forall2 (fun x s => exists rest, s = x ++ rest) (map rows_of gots) streams).
      { assert (Hh2 : forall r, In r reqs -> b <> BShuffle -> is_repart_head (rq_head r) = false) by (intros r Hr Hbs; now apply Hheads).
        clear - Hh Hsf HF Hef Hok Hmk Hrun Hseq Hh2. induction HF as [|r got reqs gots Hr HF IH]; [exists [], []; repeat constructor|].
        destruct IH as (canon & streams & E & F & F'); try (intros x Hx; first [apply Hef; now right|apply Hok; now right|apply Hh2; now right]).
        assert (Heg : error_free got) by (apply Hef; now left).
        destruct (Hok r (or_introl eq_refl)) as (c' & Ec').
        assert (GS : exists rest, sent b P c' (rows_of got ++ rest)).
        { destruct (call_begins b part tasks P _ _ _ h r got (seq_NoDup _ _) Hseq Hh Hsf Hr Heg) as [->|(c & rest & Ec & Hs)].
          - exists c'. destruct b; cbn; auto.
          - destruct (pool_execute_inv _ P _ r c tasks (Hmk _ _) Ec) as (_ & plan & _ & Ei & Ex).
            destruct (pool_execute_inv _ P _ r c' tasks (Hmk _ _) Ec') as (_ & plan' & _ & Ei' & Ex').
            destruct (exec_more _ P _ _ plan plan' (rq_target r) c (Hrun (rq_task r)) Ei Ei' Ex) as (c2 & Ex2 & Hmore).
            rewrite Ex' in Ex2. injection Ex2 as <-.
            assert (Hmore' : more_of (match b with BShuffle => false | _ => true end) P c c').
            { destruct Hmore as (more & H1 & H2). exists more. split; [exact H1|]. intros [E1|L]; apply H2; [left|now right].
              assert (Hnb : b <> BShuffle) by (destruct b; [discriminate| |]; discriminate). rewrite (Hh2 r (or_introl eq_refl) Hnb). reflexivity. }
            destruct (sent_more b P c c' _ Hs Hmore') as (rest' & Hr'). rewrite <- app_assoc in Hr'. eauto. }
        destruct GS as (rest & Hs). exists (c' :: canon), ((rows_of got ++ rest) :: streams). cbn. rewrite Ec', E.
        split; [reflexivity|]. split; constructor; eauto. }
      destruct GG as (canon & streams & E & F & F'). apply merge_rows in Hm. destruct (merge_more _ _ Hm _ F') as (rest & Hrest).
      exists (rows_of out ++ rest). split; [exists rest; rewrite Eo; split; [reflexivity|congruence]|]. exists canon, streams. auto. }
  assert (G' : forall i p, i < n -> p < partition_count part -> exists l, completes (o i p) l /\
    exists canon streams, boundary_execute b part tasks (fun t => mk t (g t)) (mkCtx i n) p = Ok canon /\
      Forall2 (sent b P) canon streams /\ merge_of streams l) by exact G.
  destruct (finite_choice2 [] n (partition_count part) _ G) as (f & Hf).
  exists (fun i p => if (i <? n) && (p <? partition_count part) then f i p else seen (o i p)). split.
  - intros i p. destruct (Nat.ltb_spec i n), (Nat.ltb_spec p (partition_count part)); cbn [andb]; try apply completes_self.
    now apply Hf.
  - intros i p Hi Hp. destruct (Nat.ltb_spec i n), (Nat.ltb_spec p (partition_count part)); try lia. cbn [andb]. now apply Hf.
Qed.
End Boundary.

(** * Whole plans *)
Section Plans.
Context {row err : Type}.
Notation tree := (tree row).
Notation table := (nat -> nat -> list row).
Notation readings := (nat -> nat -> reading row).
Variable acts : op row -> list row -> list row -> Prop.
Variables (budget capacity : nat) (bad : nat -> err).
Notation runs_so_far := (runs_so_far budget capacity bad acts).

Lemma isolated_readings_parts (cs : list tree) : forall (os : list readings) (gs : list table), Forall2 all_complete os gs ->
  map ch_parts (isolated_readings cs os) = map ch_parts (isolated_children cs gs).
Proof.
  induction cs as [|c cs IH]; intros os gs F; [reflexivity|]. inversion F as [|o g os' gs' Ho F']; subst; [reflexivity|].
  cbn. f_equal. now apply IH.
Qed.
Lemma isolated_goes_on P w m (cs : list tree) (os : list readings) (gs : list table) ctx p l :
  Forall2 all_complete os gs -> ciu_execute (mkCiu P (isolated_readings cs os) w m) ctx p = Ok l ->
  exists x, ciu_execute (mkCiu P (isolated_children cs gs) w m) ctx p = Ok x /\ completes (only l) x.
Proof.
  intros F. unfold ciu_execute, ciu_delegate. cbn [task_idx_map ciu_children]. destruct (nth_error m (task_index ctx)) as [s|]; [|discriminate].
  rewrite (pick_parts _ _ s (isolated_readings_parts cs os gs F)).
  destruct (CiuModel.pick (isolated_children cs gs) s p) as [[[[i cctx] q]|]| |]; cbn [bind]; try discriminate.
  - unfold isolated_readings, isolated_children. rewrite !nth_error_map.
    destruct (nth_error (combine cs os) i) as [[c o]|] eqn:Eo; cbn; [|discriminate]. intros [= <-]. cbn.
    assert (G : exists g, nth_error (combine cs gs) i = Some (c, g) /\ all_complete o g).
    { clear - F Eo. revert cs i Eo. induction F as [|o' g' os gs Ho F IH]; intros [|c' cs] [|i] Eo; cbn in Eo; try discriminate.
      - injection Eo as <- <-. exists g'. split; [reflexivity|exact Ho].
      - now apply IH. }
    destruct G as (g & -> & Hg). cbn. eexists. split; [reflexivity|apply Hg].
  - intros [= <-]. eexists. split; [reflexivity|]. exists []. auto.
Qed.

Lemma children_choice {A B C} (Q : nat -> A -> B -> C -> Prop) (l : list A) : forall (l' : list B), List.length l' = List.length l ->
  (forall j a b, nth_error l j = Some a -> nth_error l' j = Some b -> exists c, Q j a b c) ->
  exists l'', List.length l'' = List.length l /\
    forall j a b, nth_error l j = Some a -> nth_error l' j = Some b -> exists c, nth_error l'' j = Some c /\ Q j a b c.
Proof.
  revert Q. induction l as [|a l IH]; intros Q [|b l'] L H; try discriminate; [exists []; split; [reflexivity|]; intros [|j] ? ? E; discriminate|].
  destruct (H 0 a b eq_refl eq_refl) as (c & Hc). destruct (IH (fun j => Q (S j)) l') as (l'' & L'' & H''); [cbn in L; lia|intros j; exact (H (S j))|].
  exists (c :: l''). split; [cbn; lia|]. intros [|j] a' b' Ha Hb; cbn in *; [injection Ha as <-; injection Hb as <-; eauto|exact (H'' j a' b' Ha Hb)].
Qed.

(** What was read so far is the beginning of a complete execution. *)
Theorem goes_on (t : tree) : forall remote n f0 o, delivers acts remote t n f0 -> runs_so_far remote t n o ->
  exists f, delivers acts remote t n f /\ all_complete o f.
Proof.
  induction t as [k cs IH|w m cs IH|b part q num tasks i IH IH2] using tree_ind2; intros remote n f0 o H0 H.
  - apply delivers_node in H0 as (fs0 & F0 & _). destruct H as (os & F & Hn). apply Forall2_map_l in F.
    assert (G : exists gs, Forall2 (fun c g => delivers acts remote c n g) cs gs /\ Forall2 all_complete os gs).
    { clear - IH F0 F. revert fs0 F0. induction F as [|c o cs os Hc F IHF]; intros fs0 F0; [exists []; split; constructor|].
      inversion F0 as [|? f0 ? fs1 Hf0 F1]; subst.
      destruct (IH c (or_introl eq_refl) _ _ _ _ Hf0 Hc) as (g & Hg & Hog).
      destruct (IHF (fun c Hc => IH c (or_intror Hc)) _ F1) as (gs & Hgs & Hogs). exists (g :: gs). split; constructor; auto. }
    destruct G as (gs & Hgs & Hos). destruct (Hn gs Hos) as (f & Hf & Hd). exists f. split; [|exact Hf]. apply delivers_node. eauto.
  - apply delivers_ciu in H0 as (fs0 & [L0 F0] & _). destruct H as (os & F & Hd).
    apply (combined_Forall2 (runs_so_far remote) (fun R g => R g) cs) in F as [L F]; [|apply map_task_counts_length].
    assert (G : exists gs, List.length gs = List.length cs /\ forall j c o, nth_error cs j = Some c -> nth_error os j = Some o ->
      exists g, nth_error gs j = Some g /\ delivers acts remote c (nth j (map_task_counts (List.length cs) m) 0) g /\ all_complete o g).
    { apply (children_choice (fun j c o g => delivers acts remote c (nth j (map_task_counts (List.length cs) m) 0) g /\ all_complete o g)); [exact L|].
      intros j c o' Hc Ho. destruct (nth_error fs0 j) as [f0'|] eqn:Ef.
      - exact (IH c (nth_error_In _ _ Hc) _ _ _ _ (F0 j c f0' Hc Ef) (F j c o' Hc Ho)).
      - apply nth_error_None in Ef. assert (j < List.length cs) by (apply nth_error_Some; congruence). lia. }
    destruct G as (gs & Lg & Hgs).
    assert (Hos : Forall2 all_complete os gs).
    { apply Forall2_nth. split; [lia|]. intros j o' g' Ho Hg'. destruct (nth_error cs j) as [c|] eqn:Ec.
      - destruct (Hgs j c o' Ec Ho) as (g & E & _ & Hc). rewrite Hg' in E. now injection E as <-.
      - apply nth_error_None in Ec. assert (j < List.length gs) by (apply nth_error_Some; congruence). lia. }
    assert (G : forall i p, i < n -> p < tparts (Ciu w m cs) -> exists l,
      ciu_execute (mkCiu (tparts (Ciu w m cs)) (isolated_children cs gs) w m) (mkCtx i n) p = Ok l /\ completes (o i p) l).
    { intros i p Hi Hp. destruct (Hd i p Hi Hp) as (l & El & ->). eapply isolated_goes_on; eauto. }
    destruct (finite_choice2 [] n (tparts (Ciu w m cs)) _ G) as (f & Hf).
    exists (fun i p => if (i <? n) && (p <? tparts (Ciu w m cs)) then f i p else seen (o i p)). split.
    + apply delivers_ciu. exists gs. split; [split; [exact Lg|]|].
      * intros j c g Hc Hg. destruct (nth_error os j) as [o'|] eqn:Eo.
        { destruct (Hgs j c o' Hc Eo) as (g' & E & Hd' & _). rewrite Hg in E. now injection E as <-. }
        apply nth_error_None in Eo. assert (j < List.length gs) by (apply nth_error_Some; congruence). lia.
      * intros i p Hi Hp. destruct (Nat.ltb_spec i n), (Nat.ltb_spec p (tparts (Ciu w m cs))); try lia. cbn [andb]. now apply Hf.
    + intros i p. destruct (Nat.ltb_spec i n), (Nat.ltb_spec p (tparts (Ciu w m cs))); cbn [andb]; try apply completes_self.
      now apply Hf.
  - destruct i as [[l|p|m|spm fetch| |j c hl hr na|oo] cs|w m cs|b' part' q' num' tasks' i].
    2, 3: destruct cs as [|c [|c' cs]].
    all: destruct H0 as (g0 & Hg0 & Hb0), H as (r & Hr & Hb).
    all: first [destruct (IH _ _ _ _ Hg0 Hr) as (g & Hg & Hc)|destruct (IH2 _ _ _ eq_refl (or_introl eq_refl) _ _ _ _ Hg0 Hr) as (g & Hg & Hc)].
    all: lazymatch type of Hb0 with
      | boundary_delivers _ _ _ _ (fun t => SRepart ?p (SOther ?P _)) _ _ =>
          destruct (boundary_goes_on budget capacity bad b part tasks P (fun _ run => SRepart p (SOther P run)) r n o g g0 f0 (fun _ _ => eq_refl) Hb0 Hb Hc) as (f & Hf & Hd)
      | boundary_delivers _ _ _ _ (fun t => SBcast ?p (SOther ?P _)) _ _ =>
          destruct (boundary_goes_on budget capacity bad b part tasks P (fun _ run => SBcast p (SOther P run)) r n o g g0 f0 (fun _ _ => eq_refl) Hb0 Hb Hc) as (f & Hf & Hd)
      | boundary_delivers _ _ _ _ (fun t => SOther ?P _) _ _ =>
          destruct (boundary_goes_on budget capacity bad b part tasks P (fun _ run => SOther P run) r n o g g0 f0 (fun _ _ => eq_refl) Hb0 Hb Hc) as (f & Hf & Hd)
      end.
    all: exists f; split; [exists g; split; assumption|exact Hf].
Qed.

(** Complete executions are executions so far. *)
Definition all_closed (f : table) : readings := fun i p => mkReading (f i p) true.
Lemma closed_exact (f g : table) : all_complete (all_closed f) g -> g = f.
Proof.
  intros H. apply functional_extensionality. intros i. apply functional_extensionality. intros p.
  destruct (H i p) as (rest & E & Hr). rewrite (Hr eq_refl), app_nil_r in E. exact E.
Qed.
Lemma isolated_closed P w m (cs : list tree) (gs : list table) ctx p x :
  ciu_execute (mkCiu P (isolated_children cs gs) w m) ctx p = Ok x ->
  exists l, ciu_execute (mkCiu P (isolated_readings cs (map all_closed gs)) w m) ctx p = Ok l /\ mkReading x true = only l.
Proof.
  assert (F : Forall2 all_complete (map all_closed gs) gs).
  { induction gs as [|g gs IH]; cbn; constructor; [|exact IH]. intros i q. apply completes_self. }
  unfold ciu_execute, ciu_delegate. cbn [task_idx_map ciu_children]. destruct (nth_error m (task_index ctx)) as [s|]; [|discriminate].
  rewrite (pick_parts _ _ s (isolated_readings_parts cs _ gs F)).
  destruct (CiuModel.pick (isolated_children cs gs) s p) as [[[[i cctx] q]|]| |]; cbn [bind]; try discriminate.
  - unfold isolated_readings, isolated_children. rewrite !nth_error_map.
    assert (En : nth_error (combine cs (map all_closed gs)) i = option_map (fun '(c, g) => (c, all_closed g)) (nth_error (combine cs gs) i)).
    { clear. revert gs i. induction cs as [|c cs IH]; intros [|g gs] [|i]; cbn; auto. }
    rewrite En. destruct (nth_error (combine cs gs) i) as [[c g]|]; cbn; [|discriminate]. intros [= <-]. eexists. split; reflexivity.
  - intros [= <-]. eexists. split; reflexivity.
Qed.

Hypothesis Hbudget : 0 < budget.
Hypothesis Hcapacity : 0 < capacity.
Lemma boundary_closed b (part : partitioning row) tasks P producers (g : table) n f :
  boundary_delivers b part tasks P producers n f ->
  boundary_reads budget capacity bad b part tasks P producers (all_closed g) n (all_closed f).
Proof using Hbudget Hcapacity.
  intros H i Hi. destruct (network_clean budget capacity bad Hbudget Hcapacity b part tasks P producers n f H i Hi) as (h & Hh & Hc & Hr).
  exists h. split; [exact Hh|]. split; [intros r Hin _ j s plan p _ _ _ _; discriminate|]. split; [|exact Hr].
  intros r Hin _ canon j c s Hw Hcj Hs. destruct (Hc r Hin) as ((canon' & Hw' & F) & Hef). rewrite Hw in Hw'. injection Hw' as <-.
  exists []. rewrite app_nil_r. apply Forall2_nth in F as [_ F]. apply (F j); auto. apply Hef. eapply nth_error_In; eauto.
Qed.

Theorem undisturbed (t : tree) : forall remote n f, delivers acts remote t n f -> runs_so_far remote t n (all_closed f).
Proof using Hbudget Hcapacity.
  induction t as [k cs IH|w m cs IH|b part q num tasks i IH IH2] using tree_ind2; intros remote n f H.
  - apply delivers_node in H as (fs & F & Hd). exists (map all_closed fs). split.
    + apply Forall2_map_l. clear - IH F. induction F as [|c g cs fs Hg F IHF]; cbn; constructor; [apply IH; [now left|exact Hg]|].
      apply IHF. intros c' Hc. apply IH. now right.
    + intros gs Fg. assert (gs = fs) as ->.
      { clear - Fg. revert gs Fg. induction fs as [|f fs IH]; intros gs Fg; inversion Fg; subst; [reflexivity|]. f_equal; [now apply closed_exact|now apply IH]. }
      exists f. split; [intros i p; apply completes_self|exact Hd].
  - apply delivers_ciu in H as (fs & [L F] & Hd). exists (map all_closed fs). split.
    + apply (combined_Forall2 (runs_so_far remote) (fun R g => R g) cs); [apply map_task_counts_length|].
      rewrite map_length. split; [exact L|]. intros j c o Hc Ho. rewrite nth_error_map in Ho.
      destruct (nth_error fs j) as [g|] eqn:Eg; [|discriminate]. injection Ho as <-. apply IH; [eapply nth_error_In; eauto|now apply F].
    + intros i p Hi Hp. apply isolated_closed. now apply Hd.
  - destruct i as [[l|p|m|spm fetch| |j c hl hr na|oo] cs|w m cs|b' part' q' num' tasks' i].
    2, 3: destruct cs as [|c [|c' cs]].
    all: destruct H as (g & Hg & Hb); exists (all_closed g); (split; [|apply (boundary_closed _ _ _ _ _ g _ _ Hb)]).
    all: first [exact (IH _ _ _ Hg)|exact (IH2 _ _ _ eq_refl (or_introl eq_refl) _ _ _ Hg)].
Qed.
End Plans.
