(** C28: what does hold. Missing from the claim is the error itself ([C28_broadcast_refuted], [C28_worker_task_refuted],
    [C28_client_task_refuted]): a stream that ends without an error and without all of its data had a task that died, and what
    it delivered is a beginning of its data. *)
From Verif Require Import Base BcastModel BcastSpec BcastProps CiuModel DemuxModel DemuxSpec DemuxProofs DemuxProps.

(** A consumer of a broadcast. *)
Theorem C28_broadcast_only_crashes_truncate_partial (batch err : Type) (nd : @node batch err) st h r c input :
  steps (node_step nd) (init_state nd) st ->
  stream_at st h = Some (r, c) -> nth_error (n_input nd) (fst h) = Some (inl input) ->
  c_ended c = true -> c_got c <> until_error input ->
  r_crashed r = true /\ prefix (c_got c) (until_error input).
Proof.
  intros H Hs Hi He Hn. destruct (C27_every_consumer_sees_everything _ _ nd st h r c input H Hs Hi) as [P Q]. split; [|exact P].
  destruct (r_crashed r); [reflexivity|]. destruct (Hn (Q He eq_refl)).
Qed.
Print Assumptions C28_broadcast_only_crashes_truncate_partial.

(** A stream of a connection: the client's task died, or the worker's task of that very partition did, and what the stream
    lacks is what that task still had to send ([p_lost]). The tasks of other partitions do not matter. *)
Theorem C28_only_crashes_truncate_partial {data err : Type} start budget capacity (bad : nat -> err)
    (sources : list (list (@item data + err))) k i S p :
  conn_reachable start budget capacity bad sources k ->
  nth_error sources i = Some S -> nth_error (k_parts k) i = Some p ->
  p_ended p = true -> error_free (p_got p) -> p_got p <> S ->
  conn_prefix (p_got p) S /\ (k_crashed k = true \/ p_lost p <> [] /\ p_got p ++ p_lost p = S).
Proof.
  intros H HS Hp En Ef Hn. split.
  - destruct (C30_own_messages_in_order start budget capacity bad sources k i S p H HS Hp) as (A & HA & _ & [->|(e & E & _)]); [exact HA|].
    exfalso. apply (Ef e). rewrite E. apply in_or_app. right. now left.
  - destruct (k_crashed k) eqn:C; [now left|right]. apply inv_reachable in H.
    destruct (inv_ended _ _ _ H _ _ _ HS Hp En) as (_ & _ & Fe & Cl).
    destruct (k_failed k) as [e|] eqn:F; [destruct (Ef e); auto|]. destruct (Cl eq_refl C) as [E _].
    split; [|now symmetry]. intros E'. rewrite E', app_nil_r in E. now apply Hn.
Qed.
Print Assumptions C28_only_crashes_truncate_partial.

(** The witnesses of the refutations meet these hypotheses: the streams end, without an error, without all of their data. *)
Example C28_hypotheses_met :
  (exists (nd : @node nat string) st h r c input,
     steps (node_step nd) (init_state nd) st /\ stream_at st h = Some (r, c) /\ nth_error (n_input nd) (fst h) = Some (inl input) /\
     c_ended c = true /\ c_got c <> until_error input) /\
  (exists (sources : list (list (@item nat + string))) k p S,
     conn_reachable 0 5 2 (fun _ => "bad"%string) sources k /\ nth_error sources 0 = Some S /\ nth_error (k_parts k) 0 = Some p /\
     p_ended p = true /\ error_free (p_got p) /\ p_got p <> S).
Proof.
  split.
  - destruct C28_broadcast_refuted as (nd & st & h & r & c & input & A & B & C & _ & D & _ & E). do 6 eexists. eauto 10.
  - destruct C28_worker_task_refuted as (so & k & p & S & A & _ & B & C & D & E & F). do 4 eexists. eauto 10.
Qed.
