(** Proofs about the network boundaries. *)
From Verif Require Import Base NetModel NetSpec.
From Coq Require Import ZArith ZifyNat ZifyBool.
Ltac Zify.zify_post_hook ::= Z.div_mod_to_equations.

Section Proofs.
Context {row : Type}.
Implicit Types (h : row -> nat) (inp : splan row) (data : nat -> nat -> list row).

Lemma consumer_rows_tile m p (f : nat -> list row) :
  consumer_rows m p (fun c j => f (p * c + j)) = flat_map f (seq 0 (m * p)).
Proof.
  unfold consumer_rows. rewrite <- seq_tile, flat_map_flat_map.
  apply flat_map_ext. intros c. now rewrite flat_map_map.
Qed.

Lemma consumer_rows_perm m p (f g : nat -> nat -> list row) :
  (forall c j, c < m -> j < p -> Permutation (f c j) (g c j)) ->
  Permutation (consumer_rows m p f) (consumer_rows m p g).
Proof.
  intros H. unfold consumer_rows. apply flat_map_perm_ext. intros c Hc. apply in_seq in Hc.
  apply flat_map_perm_ext. intros j Hj. apply in_seq in Hj. apply H; lia.
Qed.

Lemma exec_all inp d : yields inp d ->
  mapM (exec inp) (seq 0 (parts inp)) = Ok (map d (seq 0 (parts inp))).
Proof. intros H. apply mapM_ok_intro. intros x Hx. apply in_seq in Hx. apply H. lia. Qed.

Lemma exec_hash h n inp d i : yields inp d -> i < n ->
  exec (SRepart (HashP h n) inp) i =
  Ok (filter (fun r => h r mod n =? i) (flat_map d (seq 0 (parts inp)))).
Proof.
  intros H Hi. cbn [exec]. rewrite (exec_all inp d H). cbn [bind].
  destruct (Nat.ltb_spec i n); [|lia]. now rewrite concat_map_flat_map.
Qed.

Lemma worker_hash h n q inp d a b :
  yields inp d -> b <= n ->
  worker_execute_task (SRepart q inp) (HRepartition (HashP h n)) a b =
  Ok (map (fun i => filter (fun r => h r mod n =? i) (flat_map d (seq 0 (parts inp))))
          (seq a (b - a))).
Proof.
  intros H Hb. unfold worker_execute_task. cbn [insert_head strip_head bind parts partition_count].
  apply mapM_ok_intro. intros i Hi. apply in_seq in Hi.
  destruct (Nat.leb_spec n i); [lia|]. apply exec_hash; [assumption|lia].
Qed.

Lemma nth_error_map_seq {B} (f : nat -> B) a n i : i < n ->
  nth_error (map f (seq a n)) i = Some (f (a + i)).
Proof. intros H. rewrite nth_error_map, nth_error_seq by assumption. reflexivity. Qed.

(** ** Shuffle *)

Lemma list_prod_flat (l l' : list nat) :
  list_prod l l' = flat_map (fun t => map (fun i => (t, i)) l') l.
Proof. induction l as [|x l IH]; cbn; [reflexivity|]. now rewrite IH. Qed.


Section Shuffle.
Variables (h : row -> nat) (P N M : nat).
Variables (plan0 : splan row) (inp : nat -> splan row) (q : nat -> partitioning row).
Variable data : nat -> nat -> list row.
Hypothesis HP : 0 < P.
Hypothesis HM : 0 < M.
Hypothesis Hdata : forall t, t < N -> yields (inp t) (data t).

Let producers t := SRepart (q t) (inp t).
Let sh := shuffle_with_input_stage (mkShuffle (HashP h P) (Local plan0 N) N) (Remote N).

Lemma shuffle_requests_eq c j :
  shuffle_requests sh N (mkCtx c M) j =
  Ok (map (fun t => mkReq (P * c) (P * c + P) t (P * c + j) (HRepartition (HashP h (P * M))))
          (seq 0 N)).
Proof.
  unfold shuffle_requests. apply mapM_ok_intro. intros t _. reflexivity.
Qed.

Lemma shuffle_execute_eq c j : c < M -> j < P ->
  shuffle_execute producers sh (mkCtx c M) j =
  Ok (map (fun t => filter (fun r => h r mod (P * M) =? P * c + j)
                           (flat_map (data t) (seq 0 (parts (inp t))))) (seq 0 N)).
Proof.
  intros Hc Hj. unfold shuffle_execute. change (sh_stage sh) with (@Remote row N).
  cbv iota beta. rewrite shuffle_requests_eq. cbn [bind].
  assert (Hb : P * c + P <= P * M) by nia.
  assert (He : forall l, (forall t, In t l -> t < N) ->
    mapM (pool_execute producers N (sh_pool sh))
      (map (fun t => mkReq (P * c) (P * c + P) t (P * c + j) (HRepartition (HashP h (P * M)))) l) =
    Ok (map (fun t => filter (fun r => h r mod (P * M) =? P * c + j)
                           (flat_map (data t) (seq 0 (parts (inp t))))) l)).
  { induction l as [|t l IH]; intros Hl; [reflexivity|].
    cbn [map mapM]. rewrite IH by (intros; apply Hl; now right).
    assert (Ht : t < N) by (apply Hl; now left).
    unfold pool_execute. cbn [rq_task rq_head rq_start rq_end rq_target].
    destruct (Nat.leb_spec N t); [lia|].
    change (sh_pool sh) with N. destruct (Nat.leb_spec N t); [lia|].
    unfold producers at 1. rewrite (worker_hash h (P * M) (q t) (inp t) (data t)) by auto.
    cbn [bind]. destruct (Nat.ltb_spec (P * c + j) (P * c)); [lia|].
    replace (P * c + P - P * c) with P by lia.
    replace (P * c + j - P * c) with j by lia.
    rewrite nth_error_map_seq by assumption. reflexivity. }
  apply He. intros t Ht. apply in_seq in Ht. lia.
Qed.

Let rows := stage_rows N (fun t => parts (inp t)) data.

Lemma shuffle_class c j :
  List.concat (map (fun t => filter (fun r => h r mod (P * M) =? P * c + j)
                           (flat_map (data t) (seq 0 (parts (inp t))))) (seq 0 N)) =
  filter (fun r => h r mod (P * M) =? P * c + j) rows.
Proof.
  unfold rows, stage_rows. rewrite concat_map_flat_map.
  rewrite filter_flat_map. reflexivity.
Qed.

Lemma shuffle_runs :
  forall c j, c < M -> j < P ->
  exists streams, shuffle_execute producers sh (mkCtx c M) j = Ok streams.
Proof. intros c j Hc Hj. eexists. apply shuffle_execute_eq; assumption. Qed.

Lemma shuffle_class_perm out : observes (shuffle_execute producers sh) M P out ->
  forall c j, c < M -> j < P ->
  Permutation (out c j) (filter (fun r => h r mod (P * M) =? P * c + j) rows).
Proof.
  intros Hobs c j Hc Hj. destruct (Hobs c j Hc Hj) as [streams [He Hm]].
  rewrite shuffle_execute_eq in He by assumption. injection He as <-.
  apply merge_perm in Hm. now rewrite shuffle_class in Hm.
Qed.

Lemma shuffle_cover out : observes (shuffle_execute producers sh) M P out ->
  Permutation (consumer_rows M P out) rows.
Proof.
  intros Hobs.
  rewrite (consumer_rows_perm M P out
             (fun c j => (fun i => filter (fun r => h r mod (P * M) =? i) rows) (P * c + j))).
  2: { intros c j Hc Hj. cbv beta. eapply shuffle_class_perm; eauto. }
  rewrite (consumer_rows_tile M P (fun i => filter (fun r => h r mod (P * M) =? i) rows)).
  rewrite (Nat.mul_comm M P).
  apply (filter_classes_perm (fun r => h r mod (P * M))).
  intros x _. apply Nat.mod_upper_bound. nia.
Qed.

Lemma shuffle_observable : exists out, observes (shuffle_execute producers sh) M P out.
Proof.
  exists (fun c j => List.concat (map (fun t => filter (fun r => h r mod (P * M) =? P * c + j)
                           (flat_map (data t) (seq 0 (parts (inp t))))) (seq 0 N))).
  intros c j Hc Hj. eexists. split; [apply shuffle_execute_eq; assumption|]. apply merge_concat.
Qed.

Lemma shuffle_colocated out : observes (shuffle_execute producers sh) M P out ->
  forall r c j, c < M -> j < P ->
    (In r (out c j) <-> In r rows /\ h r mod (P * M) = P * c + j).
Proof.
  intros Hobs r c j Hc Hj.
  pose proof (shuffle_class_perm out Hobs c j Hc Hj) as Hp.
  assert (Hi : In r (out c j) <-> In r (filter (fun r => h r mod (P * M) =? P * c + j) rows)).
  { split; apply Permutation_in; [exact Hp|now symmetry]. }
  rewrite Hi, filter_In, Nat.eqb_eq. reflexivity.
Qed.

(** Every (producer, head partition) pair is asked for exactly once. *)
Lemma shuffle_reads :
  exists reqs : nat -> nat -> list (request row),
    (forall c j, shuffle_requests sh N (mkCtx c M) j = Ok (reqs c j)) /\
    Permutation (flat_map (fun c => flat_map (fun j => map read_of (reqs c j)) (seq 0 P)) (seq 0 M))
                (all_pairs N (P * M)) /\
    (forall c j r, c < M -> j < P -> In r (reqs c j) ->
       in_range r /\ rq_end r <= P * M /\
       exists plan, insert_head (rq_head r) (producers (rq_task r)) = Ok plan /\ parts plan = P * M) /\
    (forall c j j' r r', In r (reqs c j) -> In r' (reqs c j') ->
       rq_start r = rq_start r' /\ rq_end r = rq_end r' /\ rq_head r = rq_head r').
Proof using HP HM.
  clear rows Hdata data.
  exists (fun c j =>
    map (fun t => mkReq (P * c) (P * c + P) t (P * c + j) (HRepartition (HashP h (P * M)))) (seq 0 N)).
  split; [intros; apply shuffle_requests_eq|]. split; [|split].
  - assert (He : flat_map (fun c => flat_map (fun j => map read_of
        (map (fun t => mkReq (P * c) (P * c + P) t (P * c + j) (HRepartition (HashP h (P * M))))
             (seq 0 N))) (seq 0 P)) (seq 0 M)
      = flat_map (fun i => map (fun t => (t, i)) (seq 0 N)) (seq 0 (M * P))).
    { rewrite <- seq_tile, flat_map_flat_map. apply flat_map_ext. intros c.
      rewrite flat_map_map. apply flat_map_ext. intros j. rewrite map_map. reflexivity. }
    rewrite He. unfold all_pairs. rewrite (Nat.mul_comm M P).
    rewrite list_prod_flat.
    transitivity (flat_map (fun i => flat_map (fun t => [(t, i)]) (seq 0 N)) (seq 0 (P * M))).
    { apply flat_map_perm_ext. intros i _. now rewrite flat_map_single. }
    rewrite (flat_map_swap (fun i t => [(t, i)])).
    apply flat_map_perm_ext. intros i _. now rewrite flat_map_single.
  - intros c j r Hc Hj Hr. apply in_map_iff in Hr. destruct Hr as [t [<- Ht]].
    unfold in_range. cbn. repeat split; try nia. eexists. split; reflexivity.
  - intros c j j' r r' Hr Hr'. apply in_map_iff in Hr. apply in_map_iff in Hr'.
    destruct Hr as [t [<- _]]. destruct Hr' as [t' [<- _]]. cbn. auto.
Qed.

End Shuffle.

(** ** Broadcast *)

Lemma worker_bcast k k0 inp d a b :
  yields inp d -> 0 < parts inp -> b <= parts inp * k ->
  worker_execute_task (SBcast k0 inp) (HBroadcast (parts inp * k)) a b =
  Ok (map (fun i => d (i mod parts inp)) (seq a (b - a))).
Proof.
  intros H Hpos Hb. unfold worker_execute_task. cbn [insert_head strip_head].
  destruct (Nat.eqb_spec (parts inp) 0); [lia|]. cbn [bind].
  rewrite (Nat.mul_comm (parts inp) k), Nat.div_mul by lia. cbn [parts].
  apply mapM_ok_intro. intros i Hi. apply in_seq in Hi.
  destruct (Nat.leb_spec (parts inp * k) i); [lia|]. cbn [exec].
  destruct (Nat.eqb_spec (parts inp) 0); [lia|]. apply H.
  apply Nat.mod_upper_bound. lia.
Qed.

Section Broadcast.
Variables (P N M : nat).
Variables (plan0 : splan row) (inp : nat -> splan row) (k0 : nat -> nat).
Variable data : nat -> nat -> list row.
Hypothesis HP : 0 < P.
Hypothesis Hparts : forall t, t < N -> parts (inp t) = P.
Hypothesis Hdata : forall t, t < N -> yields (inp t) (data t).

Let producers t := SBcast (k0 t) (inp t).
Let br := broadcast_with_input_stage (mkBroadcast P (Local plan0 N) N) (Remote N).

Lemma broadcast_requests_eq c j :
  broadcast_requests br N (mkCtx c M) j =
  map (fun t => mkReq (P * c) (P * c + P) t (P * c + j) (HBroadcast (P * M))) (seq 0 N).
Proof. reflexivity. Qed.

Lemma broadcast_execute_eq c j : c < M -> j < P ->
  broadcast_execute producers br (mkCtx c M) j = Ok (map (fun t => data t j) (seq 0 N)).
Proof.
  intros Hc Hj. unfold broadcast_execute. change (br_stage br) with (@Remote row N).
  cbv iota beta. rewrite broadcast_requests_eq.
  assert (Hb : P * c + P <= P * M) by nia.
  assert (He : forall l, (forall t, In t l -> t < N) ->
    mapM (pool_execute producers N (br_pool br))
      (map (fun t => mkReq (P * c) (P * c + P) t (P * c + j) (HBroadcast (P * M))) l) =
    Ok (map (fun t => data t j) l)).
  { induction l as [|t l IH]; intros Hl; [reflexivity|].
    cbn [map mapM]. rewrite IH by (intros; apply Hl; now right).
    assert (Ht : t < N) by (apply Hl; now left).
    unfold pool_execute. cbn [rq_task rq_head rq_start rq_end rq_target].
    destruct (Nat.leb_spec N t); [lia|].
    change (br_pool br) with N. destruct (Nat.leb_spec N t); [lia|].
    unfold producers at 1.
    replace (P * M) with (parts (inp t) * M) by (rewrite Hparts by assumption; reflexivity).
    rewrite (worker_bcast M (k0 t) (inp t) (data t))
      by (try apply Hdata; rewrite ?Hparts by assumption; assumption).
    cbn [bind]. destruct (Nat.ltb_spec (P * c + j) (P * c)); [lia|].
    replace (P * c + P - P * c) with P by lia.
    replace (P * c + j - P * c) with j by lia.
    rewrite nth_error_map_seq by assumption.
    rewrite Hparts by assumption.
    rewrite (mod_unique_pos (P * c + j) P c j) by lia. reflexivity. }
  apply He. intros t Ht. apply in_seq in Ht. lia.
Qed.

Lemma broadcast_cover out : observes (broadcast_execute producers br) M P out ->
  forall c, c < M ->
  Permutation (flat_map (out c) (seq 0 P)) (stage_rows N (fun _ => P) data).
Proof.
  intros Hobs c Hc. unfold stage_rows.
  rewrite (flat_map_swap (fun t i => data t i)).
  apply flat_map_perm_ext. intros j Hj. apply in_seq in Hj.
  destruct (Hobs c j Hc ltac:(lia)) as [streams [He Hm]].
  rewrite broadcast_execute_eq in He by lia. injection He as <-.
  apply merge_perm in Hm. rewrite Hm. now rewrite concat_map_flat_map.
Qed.

Lemma broadcast_observable : exists out, observes (broadcast_execute producers br) M P out.
Proof.
  exists (fun c j => List.concat (map (fun t => data t j) (seq 0 N))).
  intros c j Hc Hj. eexists. split; [apply broadcast_execute_eq; assumption|]. apply merge_concat.
Qed.

(** Per producer task, the head is asked for each of its [P * M] partitions exactly once, so each
    input partition is requested exactly [M] times: as many as the head has consumers for. *)
Lemma broadcast_reads :
  Permutation (flat_map (fun c => flat_map (fun j =>
                 map read_of (broadcast_requests br N (mkCtx c M) j)) (seq 0 P)) (seq 0 M))
              (all_pairs N (P * M)) /\
  (forall c j r, c < M -> j < P -> In r (broadcast_requests br N (mkCtx c M) j) ->
     in_range r /\
     exists plan, insert_head (rq_head r) (producers (rq_task r)) = Ok plan /\
                  parts plan = P * M /\ plan = SBcast M (inp (rq_task r))) /\
  (forall c j j' r r', In r (broadcast_requests br N (mkCtx c M) j) ->
     In r' (broadcast_requests br N (mkCtx c M) j') ->
     rq_start r = rq_start r' /\ rq_end r = rq_end r' /\ rq_head r = rq_head r').
Proof using HP Hparts.
  clear Hdata data.
  split; [|split].
  - assert (He : flat_map (fun c => flat_map (fun j => map read_of
        (broadcast_requests br N (mkCtx c M) j)) (seq 0 P)) (seq 0 M)
      = flat_map (fun i => map (fun t => (t, i)) (seq 0 N)) (seq 0 (M * P))).
    { rewrite <- seq_tile, flat_map_flat_map. apply flat_map_ext. intros c.
      rewrite flat_map_map. apply flat_map_ext. intros j. rewrite broadcast_requests_eq, map_map.
      reflexivity. }
    rewrite He. unfold all_pairs. rewrite (Nat.mul_comm M P), list_prod_flat.
    transitivity (flat_map (fun i => flat_map (fun t => [(t, i)]) (seq 0 N)) (seq 0 (P * M))).
    { apply flat_map_perm_ext. intros i _. now rewrite flat_map_single. }
    rewrite (flat_map_swap (fun i t => [(t, i)])).
    apply flat_map_perm_ext. intros i _. now rewrite flat_map_single.
  - intros c j r Hc Hj Hr. rewrite broadcast_requests_eq in Hr.
    apply in_map_iff in Hr. destruct Hr as [t [<- Ht]]. apply in_seq in Ht.
    unfold in_range. cbn [rq_start rq_end rq_target rq_head rq_task]. split; [lia|].
    unfold producers. cbn [insert_head strip_head].
    assert (Hpt : parts (inp t) = P) by (apply Hparts; lia).
    destruct (Nat.eqb_spec (parts (inp t)) 0); [lia|].
    rewrite Hpt. rewrite (Nat.mul_comm P M), Nat.div_mul by lia.
    eexists. split; [reflexivity|]. split; [cbn [parts]; rewrite Hpt; lia|reflexivity].
  - intros c j j' r r' Hr Hr'. apply in_map_iff in Hr. apply in_map_iff in Hr'.
    destruct Hr as [t [<- _]]. destruct Hr' as [t' [<- _]]. cbn. auto.
Qed.

End Broadcast.

(** ** Coalesce *)

Lemma div_ceil_spec a b : 0 < b -> div_ceil a b = a / b + (if 0 <? a mod b then 1 else 0).
Proof.
  intros Hb. unfold div_ceil. pose proof (Nat.div_mod a b ltac:(lia)) as E.
  pose proof (Nat.mod_upper_bound a b ltac:(lia)) as U.
  set (q := a / b) in *. set (r := a mod b) in *. clearbody q r.
  destruct (Nat.ltb_spec 0 r).
  - apply (div_unique_pos _ b (q + 1) (r - 1)); nia.
  - rewrite Nat.add_0_r. apply (div_unique_pos _ b q (b - 1)); nia.
Qed.

(** The groups of [M] consumers tile the [N] producers. *)
Lemma task_group_facts N c M : c < M ->
  let g := task_group N c M in
  group_len g <= max_len g /\
  max_len g = div_ceil N M /\
  start_task g + group_len g = start_task (task_group N (S c) M) /\
  N / M <= group_len g <= N / M + 1.
Proof.
  intros Hc. unfold task_group. destruct (Nat.eqb_spec M 0); [lia|].
  cbn [start_task group_len max_len]. cbv zeta.
  rewrite div_ceil_spec by lia.
  pose proof (Nat.mod_upper_bound N M ltac:(lia)) as U.
  set (q := N / M). set (r := N mod M) in *. clearbody q r.
  destruct (Nat.ltb_spec c r); destruct (Nat.ltb_spec 0 r); nia.
Qed.

Lemma task_group_start N M : 0 < M -> start_task (task_group N 0 M) = 0.
Proof. intros. unfold task_group. destruct (Nat.eqb_spec M 0); [lia|]. reflexivity. Qed.

Lemma task_group_end N M : 0 < M -> start_task (task_group N M M) = N.
Proof.
  intros. unfold task_group. destruct (Nat.eqb_spec M 0); [lia|]. cbn [start_task]. cbv zeta.
  pose proof (Nat.div_mod N M ltac:(lia)). pose proof (Nat.mod_upper_bound N M ltac:(lia)). nia.
Qed.

Lemma groups_tile N M : 0 < M ->
  flat_map (fun c => map (fun o => start_task (task_group N c M) + o)
                         (seq 0 (group_len (task_group N c M)))) (seq 0 M) = seq 0 N.
Proof.
  intros HM.
  assert (G : forall m, m <= M ->
    flat_map (fun c => map (fun o => start_task (task_group N c M) + o)
                         (seq 0 (group_len (task_group N c M)))) (seq 0 m)
    = seq 0 (start_task (task_group N m M))).
  { induction m as [|m IH]; intros Hm; [now rewrite task_group_start|].
    rewrite seq_S, flat_map_app, IH by lia. cbn [flat_map plus]. rewrite app_nil_r.
    destruct (task_group_facts N m M) as (_ & _ & E & _); [lia|]. rewrite <- E.
    rewrite seq_app. f_equal. cbn [plus]. symmetry. apply seq_shift_map. }
  rewrite G by lia. now rewrite task_group_end.
Qed.

(** Splitting partitions 0..k*p-1 into (offset, target). *)
Lemma seq_divmod {B} (p k : nat) (f : nat -> nat -> list B) : 0 < p ->
  flat_map (fun i => f (i / p) (i mod p)) (seq 0 (k * p)) =
  flat_map (fun o => flat_map (f o) (seq 0 p)) (seq 0 k).
Proof.
  intros Hp. rewrite <- seq_tile, flat_map_flat_map. apply flat_map_ext. intros c.
  rewrite flat_map_map. apply flat_map_ext_in. intros j Hj. apply in_seq in Hj.
  rewrite (div_unique_pos (p * c + j) p c j) by lia.
  rewrite (mod_unique_pos (p * c + j) p c j) by lia. reflexivity.
Qed.

Section Coalesce.
Variables (P N M : nat).
Variables (prods : nat -> splan row).
Variable data : nat -> nat -> list row.
Hypothesis HP : 0 < P.
Hypothesis HM : 0 < M.

(** A coalesce whose output partition count is [P * max_group] and that reads [N] workers. *)
Variable co : coalesce row.
Hypothesis Hstage : co_stage co = Remote N.
Hypothesis Hpool : co_pool co = N.
Hypothesis Hcount : partition_count (co_part co) = P * Nat.max (div_ceil N M) 1.

Lemma coalesce_request_eq c i : c < M ->
  coalesce_request co (mkCtx c M) i =
  Ok (if group_len (task_group N c M) <=? i / P then None
      else Some (mkReq 0 P (start_task (task_group N c M) + i / P) (i mod P) HNone)).
Proof using HP HM Hstage Hcount.
  clear Hpool prods data.
  intros Hc. unfold coalesce_request. cbn [task_count task_index].
  destruct (Nat.leb_spec M c); [lia|]. rewrite Hcount, Hstage. cbn [stage_task_count].
  rewrite Nat.div_mul by lia. destruct (Nat.eqb_spec P 0); [lia|].
  destruct (task_group_facts N c M Hc) as (Hlen & _).
  destruct (Nat.leb_spec (group_len (task_group N c M)) (i / P)); [reflexivity|].
  destruct (Nat.leb_spec (max_len (task_group N c M)) (i / P)); [lia|]. reflexivity.
Qed.

Lemma coalesce_reads_exact :
  Permutation
    (flat_map (fun c => flat_map (fun i =>
        match coalesce_request co (mkCtx c M) i with
        | Ok (Some r) => [read_of r]
        | _ => []
        end) (seq 0 (partition_count (co_part co)))) (seq 0 M))
    (all_pairs N P).
Proof using HP HM Hstage Hcount.
  clear Hpool prods data.
  rewrite Hcount.
  assert (E : flat_map (fun c => flat_map (fun i =>
        match coalesce_request co (mkCtx c M) i with
        | Ok (Some r) => [read_of r]
        | _ => []
        end) (seq 0 (P * Nat.max (div_ceil N M) 1))) (seq 0 M) =
     flat_map (fun t => flat_map (fun j => [(t, j)]) (seq 0 P)) (seq 0 N)).
  { rewrite <- (groups_tile N M HM), flat_map_flat_map. apply flat_map_ext_in. intros c Hc.
    apply in_seq in Hc. rewrite flat_map_map.
    pose (f := fun o j : nat => if group_len (task_group N c M) <=? o then []
                     else [(start_task (task_group N c M) + o, j)]).
    transitivity (flat_map (fun i => f (i / P) (i mod P))
                 (seq 0 (Nat.max (div_ceil N M) 1 * P))).
    { rewrite (Nat.mul_comm P). apply flat_map_ext. intros i. unfold f.
      rewrite coalesce_request_eq by lia. cbv beta.
      destruct (Nat.leb_spec (group_len (task_group N c M)) (i / P)); reflexivity. }
    rewrite (seq_divmod P _ f) by lia. unfold f.
    destruct (task_group_facts N c M ltac:(lia)) as (Hlen & Hmax & _).
    set (g := group_len (task_group N c M)) in *.
    assert (Hg : g <= Nat.max (div_ceil N M) 1) by lia.
    replace (Nat.max (div_ceil N M) 1) with (g + (Nat.max (div_ceil N M) 1 - g)) by lia.
    rewrite seq_app, flat_map_app. rewrite (flat_map_ext_in _ (fun _ => []) (seq (0 + g) _)).
    2: { intros o Ho. apply in_seq in Ho. destruct (Nat.leb_spec g o); [|lia]. apply flat_map_nil. }
    rewrite flat_map_nil, app_nil_r. apply flat_map_ext_in. intros o Ho. apply in_seq in Ho.
    destruct (Nat.leb_spec g o); [lia|]. reflexivity. }
  rewrite E. unfold all_pairs. rewrite list_prod_flat. apply flat_map_perm_ext. intros t _.
  now rewrite flat_map_single.
Qed.

(** Plans whose head the coalesce leaves alone. *)
Definition plain (p : splan row) : Prop := exists n run, p = SOther n run.

Hypothesis Hprods : forall t, t < N -> plain (prods t) /\ parts (prods t) = P /\ yields (prods t) (data t).

Lemma worker_plain p d : plain p -> yields p d -> forall b, b <= parts p ->
  worker_execute_task p HNone 0 b = Ok (map d (seq 0 b)).
Proof.
  intros [n [run ->]] Hy b Hb. unfold worker_execute_task. cbn [insert_head strip_head bind].
  rewrite Nat.sub_0_r. apply mapM_ok_intro. intros i Hi. apply in_seq in Hi.
  destruct (Nat.leb_spec (parts (SOther n run)) i); [lia|]. apply Hy. lia.
Qed.

Lemma coalesce_execute_eq c i : c < M ->
  coalesce_execute prods co (mkCtx c M) i =
  Ok (if group_len (task_group N c M) <=? i / P then []
      else [data (start_task (task_group N c M) + i / P) (i mod P)]).
Proof.
  intros Hc. unfold coalesce_execute. rewrite Hstage, coalesce_request_eq by assumption. cbn [bind].
  destruct (Nat.leb_spec (group_len (task_group N c M)) (i / P)) as [|Hlt]; [reflexivity|].
  set (t := start_task (task_group N c M) + i / P).
  assert (Ht : t < N).
  { assert (HIn : In t (seq 0 N)); [|apply in_seq in HIn; lia].
    rewrite <- (groups_tile N M HM). apply in_flat_map. exists c. split; [apply in_seq; lia|].
    apply in_map_iff. exists (i / P). split; [reflexivity|]. apply in_seq.
    split; [apply Nat.le_0_l|exact Hlt]. }
  unfold pool_execute. cbn [rq_task rq_head rq_start rq_end rq_target].
  destruct (Nat.leb_spec N t); [lia|]. rewrite Hpool. destruct (Nat.leb_spec N t); [lia|].
  destruct (Hprods t Ht) as (Hpl & Hpp & Hy).
  rewrite (worker_plain (prods t) (data t)) by (auto; lia). cbn [bind].
  destruct (Nat.ltb_spec (i mod P) 0); [lia|]. rewrite Nat.sub_0_r.
  pose proof (Nat.mod_upper_bound i P ltac:(lia)).
  rewrite nth_error_map_seq by assumption. reflexivity.
Qed.

Lemma coalesce_observable :
  exists out, observes (coalesce_execute prods co) M (partition_count (co_part co)) out.
Proof.
  exists (fun c i => List.concat (if group_len (task_group N c M) <=? i / P then []
      else [data (start_task (task_group N c M) + i / P) (i mod P)])).
  intros c i Hc Hi. eexists. split; [apply coalesce_execute_eq; assumption|]. apply merge_concat.
Qed.

Lemma coalesce_cover out :
  observes (coalesce_execute prods co) M (partition_count (co_part co)) out ->
  consumer_rows M (partition_count (co_part co)) out = stage_rows N (fun _ => P) data.
Proof.
  intros Hobs. unfold consumer_rows, stage_rows.
  rewrite <- (groups_tile N M HM), flat_map_flat_map. apply flat_map_ext_in. intros c Hc.
  apply in_seq in Hc. rewrite flat_map_map.
  pose (f := fun o j : nat => if group_len (task_group N c M) <=? o then []
                     else data (start_task (task_group N c M) + o) j).
  transitivity (flat_map (fun i => f (i / P) (i mod P))
                 (seq 0 (Nat.max (div_ceil N M) 1 * P))).
  { unfold f. rewrite Hcount, (Nat.mul_comm P). apply flat_map_ext_in. intros i Hi. apply in_seq in Hi.
    destruct (Hobs c i ltac:(lia)) as [ss [He Hm]]; [rewrite Hcount; lia|].
    rewrite coalesce_execute_eq in He by lia. injection He as <-.
    destruct (Nat.leb_spec (group_len (task_group N c M)) (i / P)).
    - inversion Hm as [|pre ? ? ? ? ? Hx]; [reflexivity|].
      exfalso. destruct pre; discriminate.
    - assert (G : forall (s o : list row), merge_of [s] o -> o = s).
      { clear. intros s o H. remember [s] as l eqn:El. revert s El.
        induction H as [ss H|pre x s' post o H IH]; intros s El; subst.
        - inversion H; subst. reflexivity.
        - destruct pre as [|? pre]; cbn in El; [|destruct pre; discriminate].
          injection El as <- ->. f_equal. apply IH. reflexivity. }
      apply G. exact Hm. }
  rewrite (seq_divmod P _ f) by lia. unfold f.
  destruct (task_group_facts N c M ltac:(lia)) as (Hlen & Hmax & _).
  set (g := group_len (task_group N c M)) in *.
  replace (Nat.max (div_ceil N M) 1) with (g + (Nat.max (div_ceil N M) 1 - g)) by lia.
  rewrite seq_app, flat_map_app. rewrite (flat_map_ext_in _ (fun _ => []) (seq (0 + g) _)).
  2: { intros o Ho. apply in_seq in Ho. destruct (Nat.leb_spec g o); [|lia]. apply flat_map_nil. }
  rewrite flat_map_nil, app_nil_r. apply flat_map_ext_in. intros o Ho. apply in_seq in Ho.
  destruct (Nat.leb_spec g o); [lia|]. reflexivity.
Qed.

End Coalesce.

End Proofs.

(** ** Statements through the constructors *)

Section Api.
Context {row : Type}.

Lemma shuffle_try_new_inv (input : splan row) N s :
  shuffle_try_new input N = Ok s ->
  exists h P i, input = SRepart (HashP h P) i /\ s = mkShuffle (HashP h P) (Local input N) N.
Proof.
  destruct input as [n r|[n|h n|n|n] i|k i]; cbn; try discriminate.
  intros H. injection H as <-. eauto.
Qed.

Lemma coalesce_same_tasks (input : splan row) N M c c' :
  0 < N -> coalesce_try_new input N M = Ok c ->
  coalesce_with_input_stage c (Remote N) = Ok c' ->
  0 < M /\ co_stage c' = Remote N /\ co_pool c' = N /\
  partition_count (co_part c') = parts input * Nat.max (div_ceil N M) 1.
Proof.
  intros HN. unfold coalesce_try_new, coalesce_try_from_stage.
  destruct (Nat.eqb_spec M 0); [discriminate|]. cbn [stage_task_count].
  set (k := Nat.max (div_ceil N M) 1).
  assert (Hp : partition_count (plan_partitioning input) = parts input)
    by (destruct input; reflexivity).
  destruct (plan_partitioning input) as [n0|h n0|n0|n0] eqn:E; cbn; try discriminate;
    intros H; injection H as <-; cbn; intros H; injection H as <-; cbn; cbn in Hp; subst n0;
    (split; [lia|]); (split; [reflexivity|]); (split; [reflexivity|]);
    rewrite (Nat.max_l N 1) by lia; apply Nat.div_mul; lia.
Qed.

Lemma coalesce_rescaled_one (input : splan row) N N' c c' :
  0 < N' -> coalesce_try_new input N 1 = Ok c ->
  coalesce_with_input_stage c (Remote N') = Ok c' ->
  co_stage c' = Remote N' /\ co_pool c' = N' /\
  partition_count (co_part c') = parts input * Nat.max (div_ceil N' 1) 1.
Proof.
  intros HN. unfold coalesce_try_new, coalesce_try_from_stage. cbn [Nat.eqb stage_task_count].
  assert (D : forall x, div_ceil x 1 = x)
    by (intros x; unfold div_ceil; rewrite Nat.div_1_r; lia).
  rewrite !D.
  assert (Hp : partition_count (plan_partitioning input) = parts input)
    by (destruct input; reflexivity).
  destruct (plan_partitioning input) as [n0|h n0|n0|n0] eqn:E; cbn [bind scale_partitioning]; try discriminate;
    intros H; injection H as <-; unfold coalesce_with_input_stage;
    cbn [co_part co_stage scale_partitioning bind stage_task_count];
    intros H; injection H as <-; cbn [co_stage co_pool co_part partition_count];
    cbn in Hp; subst n0;
    (split; [reflexivity|]); (split; [reflexivity|]);
    replace (parts input * Nat.max N 1 * N') with (parts input * N' * Nat.max N 1) by nia;
    rewrite Nat.div_mul by lia; f_equal; lia.
Qed.

Lemma insert_head_idem (h : head row) p p1 :
  h <> HNone -> insert_head h p = Ok p1 -> insert_head h p1 = Ok p1.
Proof.
  destruct h as [|o|q]; intros Hn; [congruence| |].
  - cbn. destruct (Nat.eqb_spec (parts (strip_head p)) 0); [discriminate|].
    intros H; injection H as <-. cbn.
    destruct (Nat.eqb_spec (parts (strip_head p)) 0); [contradiction|reflexivity].
  - cbn. intros H; injection H as <-. reflexivity.
Qed.

End Api.
