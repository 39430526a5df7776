(** Property C94: the session in which a worker runs a task. *)
From Verif Require Import Base NetModel NetSpec NetProps HeaderModel HeaderSpec HeaderProofs HeaderProps WSessionModel WSessionSpec WSessionProofs.
From Coq Require Import String NArith Lia.
Local Open Scope string_scope.

(** A task whose session was built by a careful session builder runs with the number and the task count that the coordinator gave
    it, finds every feed that was declared, and knows which worker it runs on. *)
Theorem C94_tasks_know_their_place :
  forall (bytes plan f64 : Type) text parse (factor : f64) opts (dec : bytes -> Res plan) b h r s p,
  careful b -> task_data text parse factor opts dec b h r = Ok (s, p) ->
  from_ctx s = mkCtx (sp_task_number r) (sp_task_count r) /\ w_worker s = Some (sp_url r) /\
  (exists rx, w_feeds s = Some rx /\ forall id i, In (id, i) rx <-> exists n, In (id, n) (sp_feeds r) /\ i < n).
Proof.
  intros bytes plan f64 text parse factor opts dec b h r s p Hb H. unfold task_data in H.
  destruct (given_session text parse factor opts dec h r) as [s0| |] eqn:G; cbn [bind] in H; try discriminate.
  destruct (build_session_state b s0 h) as [s1| |] eqn:B; cbn [bind] in H; try discriminate.
  destruct (w_decode s1 (sp_plan r)) as [q| |]; cbn [bind] in H; try discriminate.
  destruct (rewrite_plan s1 q) as [q'| |]; cbn [bind] in H; try discriminate. injection H as <- _.
  destruct (Hb _ _ _ B) as (T & F & W). unfold given_session in G.
  destruct (from_headers _ _ h) as [d| |]; cbn [bind] in G; try discriminate. injection G as <-. cbn in T, F, W.
  unfold from_ctx. rewrite T, F, W. split; [reflexivity|]. split; [reflexivity|]. eexists. split; [reflexivity|].
  intros id i. unfold receivers. rewrite in_flat_map. split.
  - intros ([id' n] & Hin & Hi). apply in_map_iff in Hi as (j & E & Hj). injection E as -> ->. apply in_seq in Hj. exists n. split; [exact Hin|lia].
  - intros (n & Hin & Hi). exists (id, n). split; [exact Hin|]. apply in_map_iff. exists i. split; [reflexivity|]. apply in_seq. lia.
Qed.
Print Assumptions C94_tasks_know_their_place.

(** The builders that the documentation shows are careful: the default one, one that registers rewrite handlers, one that reads an
    extension, and careful ones mapped with something that keeps the task's place. *)
Theorem C94_usual_builders_are_careful :
  forall bytes plan f64 : Type,
  careful (DefaultBuilder : builder bytes plan f64) /\
  (forall hs, careful (registering hs : builder bytes plan f64)) /\
  (forall T, careful (reading T : builder bytes plan f64)) /\
  (forall (b : builder bytes plan f64) f, careful b -> (forall s s', f s = Ok s' -> same_place s s') -> careful (Mapped b f)).
Proof.
  intros bytes plan f64. split; [|split; [|split]].
  - intros s h s' H. injection H as <-. apply same_place_refl.
  - intros hs s h s' H. cbn in H. injection H as <-. exact (proj1 (registered hs s)).
  - intros T s h s' H. cbn in H. unfold with_extension in H. destruct (from_headers T (HeaderModel.default T) h); cbn in H; try discriminate.
    injection H as <-. repeat split.
  - intros b f Hb Hf s h s' H. cbn in H. destruct (build_session_state b s h) as [s1| |] eqn:B; cbn in H; try discriminate.
    eapply same_place_trans; [exact (Hb _ _ _ B)|exact (Hf _ _ H)].
Qed.
Print Assumptions C94_usual_builders_are_careful.

(** So the [M] tasks of a stage, set up on any workers with any careful session builders, read a shuffle completely and without
    repetition. *)
Theorem C94_stage_reads_all :
  forall (bytes plan f64 row : Type) text parse (factor : f64) opts (dec : bytes -> Res plan)
    (b : nat -> builder bytes plan f64) h (r : nat -> set_plan) s p
    (input : splan row) (N M : nat) (sh : shuffle row) (q : nat -> partitioning row) (inp : nat -> splan row) (data : nat -> nat -> list row) out,
  (forall c, careful (b c)) -> (forall c, c < M -> task_data text parse factor opts dec (b c) h (r c) = Ok (s c, p c)) ->
  (forall c, c < M -> sp_task_number (r c) = c /\ sp_task_count (r c) = M) ->
  shuffle_try_new input N = Ok sh -> 0 < parts input -> 0 < M -> (forall t, t < N -> yields (inp t) (data t)) ->
  (forall c j, c < M -> j < parts input -> exists streams,
     shuffle_execute (fun t => SRepart (q t) (inp t)) (shuffle_with_input_stage sh (Remote N)) (from_ctx (s c)) j = Ok streams /\
     merge_of streams (out c j)) ->
  Permutation (consumer_rows M (parts input) out) (stage_rows N (fun t => parts (inp t)) data).
Proof.
  intros bytes plan f64 row text parse factor opts dec b h r s p input N M sh q inp data out Hb Ht Hr Hs HP HM Hd Ho.
  apply (proj2 (C01_shuffle_exact_cover row input N N M sh q inp data Hs HP HM Hd)). intros c j Hc Hj.
  destruct (C94_tasks_know_their_place _ _ _ _ _ _ _ _ _ _ _ _ _ (Hb c) (Ht c Hc)) as (E & _).
  destruct (Hr c Hc) as [E1 E2]. rewrite E1, E2 in E. rewrite <- E. exact (Ho c j Hc Hj).
Qed.
Print Assumptions C94_stage_reads_all.

(** The handlers of a worker run in the order of their registration, each on the plan that the previous one returned; the first error
    is the task's error. *)
Theorem C94_rewrites_in_order :
  forall (bytes plan f64 : Type) text parse (factor : f64) opts (dec : bytes -> Res plan) hs h r g q,
  given_session text parse factor opts dec h r = Ok g -> dec (sp_plan r) = Ok q ->
  (forall p, passes (w_options g) hs q p <-> exists s, task_data text parse factor opts dec (registering hs) h r = Ok (s, p)) /\
  (forall hs1 hd hs2 p1 e, hs = (hs1 ++ hd :: hs2)%list -> passes (w_options g) hs1 q p1 -> hd p1 (w_options g) = Err e ->
     task_data text parse factor opts dec (registering hs) h r = Err e).
Proof.
  intros bytes plan f64 text parse factor opts dec hs h r g q G Q.
  assert (N : w_rewrite g = None /\ w_decode g = dec).
  { unfold given_session in G. destruct (from_headers _ _ h); cbn [bind] in G; try discriminate. injection G as <-. auto. }
  destruct N as [N D]. destruct (registered hs g) as (_ & O & D' & R & R0). cbv zeta in *.
  set (s := fold_left (fun s hd => with_rewrite_handler hd s) hs g) in *.
  assert (E : task_data text parse factor opts dec (registering hs) h r =
    let* p := foldM (fun p hd => hd p (w_options g)) hs q in Ok (s, p)).
  { unfold task_data. rewrite G. cbn [bind registering build_session_state]. fold s. rewrite D', D, Q. cbn [bind].
    unfold rewrite_plan. destruct hs as [|hd hs].
    - rewrite (R0 eq_refl), N. reflexivity.
    - destruct (R ltac:(discriminate)) as (c & Ec & Cu & Bu). rewrite Ec. unfold try_fold. rewrite Cu, Bu, N, app_nil_r, O. reflexivity. }
  split.
  - intros p. rewrite E. split.
    + intros P. apply passes_fold in P. rewrite P. exists s. reflexivity.
    + intros [s' H]. destruct (foldM _ hs q) as [p'| |] eqn:F; cbn in H; try discriminate. injection H as _ <-. exact (fold_passes _ _ _ _ F).
  - intros hs1 hd hs2 p1 e -> P He. rewrite E, (foldM_error _ hs1 hd hs2 q p1 e (passes_fold _ _ _ _ P) He). reflexivity.
Qed.
Print Assumptions C94_rewrites_in_order.

(** The extension [T] that the coordinator marked for propagation is in the session of a worker whose builder reads it, with the values
    that the coordinator set, under the conditions of C41. *)
Theorem C94_extensions_arrive_partial :
  forall (bytes plan f64 : Type) text parse (factor : f64) opts (dec : bytes -> Res plan) T ok st co p cfg' h r s q,
  lawful T ok -> ok st ->
  In (PREFIX T, entries T st) (extensions (co_session co)) ->
  (forall es, In (PREFIX T, es) (extensions (co_session co)) -> es = entries T st) ->
  In (PREFIX T) (prefixes (co_session co)) ->
  (forall k, In k (map fst (entries T (default T))) -> plain_key T k) ->
  (forall Q es k v n, In (Q, es) (extensions (co_session co)) -> Q <> PREFIX T -> In (k, Some v) es ->
     header_name (FLIGHT_METADATA_CONFIG_PREFIX ++ Q ++ "." ++ k) = Ok n -> looks_like_option T n = false) ->
  set_passthrough_headers (co_session co) p = Ok cfg' -> (forall n v, In (n, v) p -> starts_with (PREFIX T ++ ".") n = false) ->
  plan_request_headers cfg' = Ok h ->
  task_data text parse factor opts dec (reading T) h r = Ok (s, q) ->
  exists es, In (PREFIX T, es) (w_user s) /\ forall k v, In (k, Some v) (entries T st) -> In (k, Some v) es.
Proof.
  intros bytes plan f64 text parse factor opts dec T ok st co p cfg' h r s q L Hs H1 H2 H3 H4 H5 H6 H7 H8 H.
  destruct (C41_options_restored_partial T ok st (default T) (co_session co) p cfg' h L Hs (proj1 L) H1 H2 H3 H4 H5 H6 H7 H8) as (e & E & R).
  unfold task_data in H. destruct (given_session text parse factor opts dec h r) as [s0| |]; cbn [bind] in H; try discriminate.
  cbn [reading build_session_state] in H. unfold with_extension in H. rewrite E in H. cbn [bind] in H.
  match type of H with (let* _ := w_decode ?x _ in _) = _ => set (s1 := x) in * end.
  destruct (w_decode s1 (sp_plan r)) as [q0| |]; cbn [bind] in H; try discriminate.
  destruct (rewrite_plan s1 q0) as [q1| |]; cbn [bind] in H; try discriminate. injection H as <- _.
  exists (entries T e). split; [apply in_or_app; right; now left|]. intros k v Hk. exact (proj1 (R k) v Hk).
Qed.
Print Assumptions C94_extensions_arrive_partial.

(** A batch size for shuffles that the coordinator set is the batch size of the workers' sessions. *)
Theorem C94_shuffle_batch_size :
  forall (bytes plan f64 : Type) (f64_text : f64 -> string) (f64_parse : string -> option f64),
  (forall f, exists f', f64_parse (f64_text f) = Some f' /\ f64_text f' = f64_text f) ->
  forall factor opts (dec : bytes -> Res plan) c co p cfg' h r s q, let T := distributed f64_text f64_parse factor in
  typed_like (distributed_default factor) c ->
  In ("distributed", entries T c) (extensions (co_session co)) ->
  (forall es, In ("distributed", es) (extensions (co_session co)) -> es = entries T c) ->
  In "distributed" (prefixes (co_session co)) ->
  (forall Q es k v n, In (Q, es) (extensions (co_session co)) -> Q <> "distributed" -> In (k, Some v) es ->
     header_name (FLIGHT_METADATA_CONFIG_PREFIX ++ Q ++ "." ++ k) = Ok n -> looks_like_option T n = false) ->
  set_passthrough_headers (co_session co) p = Ok cfg' -> (forall n v, In (n, v) p -> starts_with "distributed." n = false) ->
  plan_request_headers cfg' = Ok h ->
  (exists v, get_opt opts BATCH_SIZE = Some v) ->
  task_data f64_text f64_parse factor opts dec DefaultBuilder h r = Ok (s, q) ->
  forall n, In ("shuffle_batch_size", VUsize n) c ->
  get_opt (w_options s) BATCH_SIZE = if (n =? 0)%N then get_opt opts BATCH_SIZE else Some (usize_text n).
Proof.
  intros bytes plan f64 f64_text f64_parse Hlaw factor opts dec c co p cfg' h r s q T Hc H1 H2 H3 H5 H6 H7 H8 [v0 Hv] H n Hn.
  pose proof (distributed_lawful f64_text f64_parse Hlaw factor) as HT.
  destruct (restored T _ c (default T) (co_session co) p cfg' h HT Hc (proj1 HT) H1 H2 H3 (distributed_plain f64_text f64_parse factor) H5 H6 H7 H8)
    as (c' & E & Hok & R).
  assert (Ee : entries T c' = entries T c).
  { destruct HT as (_ & Hnd & Hkeys & _). apply same_entries.
    - transitivity (map fst (entries T (default T))); [exact (Hkeys c' Hok)|symmetry; exact (Hkeys c Hc)].
    - replace (map fst (entries T c)) with (map fst (entries T (default T))) by (symmetry; exact (Hkeys c Hc)). exact Hnd.
    - intros k v Hi. apply in_map_iff in Hi as ([k0 w] & Ex & _). injection Ex as _ <-. eauto.
    - intros k t. apply R. }
  pose proof (texts_numbers f64_text (distributed_default factor) c c' "shuffle_batch_size" Hc Hok Ee) as En.
  assert (Enc : usize_option c "shuffle_batch_size" = n).
  { clear - Hc Hn. pose proof (typed_keys _ _ Hc) as K. unfold usize_option.
    assert (ND : NoDup (map fst c)).
    { rewrite K. cbn [map fst distributed_default]. repeat (constructor; [cbn; intuition discriminate|]). constructor. }
    clear K Hc. induction c as [|[k v] c IH]; [destruct Hn|]. cbn [find fst]. destruct (k =? "shuffle_batch_size") eqn:Ek.
    - apply String.eqb_eq in Ek as ->. destruct Hn as [Hn|Hn]; [now injection Hn as ->|]. exfalso. cbn in ND.
      apply NoDup_cons_iff in ND as [ND _]. apply ND. apply in_map_iff. exists ("shuffle_batch_size", VUsize n). auto.
    - destruct Hn as [Hn|Hn]; [injection Hn as -> ->; now rewrite String.eqb_refl in Ek|]. apply IH; [exact Hn|]. cbn in ND. now apply NoDup_cons_iff in ND. }
  unfold task_data, given_session in H. change (from_headers (distributed f64_text f64_parse factor) (distributed_default factor) h) with
    (from_headers T (default T) h) in H. rewrite E in H. cbn [bind build_session_state w_decode w_rewrite rewrite_plan] in H.
  destruct (dec (sp_plan r)); cbn [bind] in H; try discriminate. injection H as <- _. cbn [w_options]. rewrite En, Enc.
  destruct (n =? 0)%N; [reflexivity|]. exact (get_set opts BATCH_SIZE (usize_text n) v0 Hv).
Qed.
Print Assumptions C94_shuffle_batch_size.

(** DataFusion's own options are not sent: whatever the coordinator's session says (its time zone, for instance), a worker with the default
    session builder has DataFusion's default, except for the batch size; so every option that the coordinator set to another value is
    different on the worker. *)
Theorem C94_session_options_refuted :
  forall (bytes plan f64 : Type) text parse (factor : f64) opts (dec : bytes -> Res plan) co h r s p k v,
  plan_request_headers (co_session co) = Ok h -> task_data text parse factor opts dec DefaultBuilder h r = Ok (s, p) ->
  k <> BATCH_SIZE -> get_opt (co_options co) k = Some v -> get_opt opts k <> Some v ->
  get_opt (w_options s) k <> get_opt (co_options co) k.
Proof.
  intros bytes plan f64 text parse factor opts dec co h r s p k v _ H Hk Hv Hd.
  unfold task_data in H. destruct (given_session text parse factor opts dec h r) as [s0| |] eqn:G; cbn [bind] in H; try discriminate.
  cbn [build_session_state bind] in H. destruct (w_decode s0 (sp_plan r)) as [q0| |]; cbn [bind] in H; try discriminate.
  destruct (rewrite_plan s0 q0) as [q1| |]; cbn [bind] in H; try discriminate. injection H as <- _.
  unfold given_session in G. destruct (from_headers _ _ h) as [d| |]; cbn [bind] in G; try discriminate. injection G as <-.
  cbn [w_options]. destruct (usize_option d "shuffle_batch_size" =? 0)%N; [congruence|].
  rewrite (get_set_other opts BATCH_SIZE _ k Hk). congruence.
Qed.
Print Assumptions C94_session_options_refuted.

Module WSessionEx.
(** Doubles as texts, plans as numbers. *)
Definition D : extension := distributed (fun f : string => f) (fun s => Some s) "1".
Definition opts : options := [(BATCH_SIZE, "8192"); ("datafusion.execution.time_zone", "+00:00")].
Definition c : state D := Eval vm_compute in
  match HeaderModel.set D (default D) "shuffle_batch_size" "1000" with Ok c => c | _ => default D end.
Definition co : coordinator := mkCoordinator [(BATCH_SIZE, "500"); ("datafusion.execution.time_zone", "+02:00")]
  (mkSession [("distributed", entries D c)] ["distributed"] None).
Definition h : headers := Eval vm_compute in match plan_request_headers (co_session co) with Ok h => h | _ => [] end.
Definition r (i : nat) : @set_plan nat := mkSetPlan 7 i 2 "http://w1" [(4, 3)].
Definition setup (b : builder nat nat string) (i : nat) := task_data (fun f : string => f) (fun s => Some s) "1" opts (fun b => Ok (b * 10)) b h (r i).
Definition hs : list (nat -> options -> Res nat) := [(fun p _ => Ok (p + 1)); (fun p _ => Ok (p * 2))].

(** Task 1 of 2 with two handlers. *)
Example C94_case : exists s, setup (registering hs) 1 = Ok (s, 142) /\ from_ctx s = mkCtx 1 2 /\ w_feeds s = Some [(4, 0); (4, 1); (4, 2)] /\
  get_opt (w_options s) BATCH_SIZE = Some "1000" /\ get_opt (w_options s) "datafusion.execution.time_zone" = Some "+00:00" /\
  plan_request_headers (co_session co) = Ok h.
Proof. eexists. split; [vm_compute; reflexivity|]. repeat split. Qed.

(** The hypotheses of [C94_shuffle_batch_size] and [C94_extensions_arrive_partial] in this case. *)
Example C94_headers_case : exists cfg',
  typed_like (distributed_default "1") c /\ lawful D (typed_like (distributed_default "1")) /\
  In ("distributed", entries D c) (extensions (co_session co)) /\
  (forall es, In ("distributed", es) (extensions (co_session co)) -> es = entries D c) /\
  In "distributed" (prefixes (co_session co)) /\
  (forall k, In k (map fst (entries D (default D))) -> plain_key D k) /\
  (forall Q es k v n, In (Q, es) (extensions (co_session co)) -> Q <> "distributed" -> In (k, Some v) es ->
     header_name (FLIGHT_METADATA_CONFIG_PREFIX ++ Q ++ "." ++ k) = Ok n -> looks_like_option D n = false) /\
  set_passthrough_headers (co_session co) [("x-user", "me")] = Ok cfg' /\
  (forall n v, In (n, v) [("x-user", "me")] -> starts_with "distributed." n = false) /\
  (exists h', plan_request_headers cfg' = Ok h' /\
     (exists s q, task_data (fun f : string => f) (fun s => Some s) "1" opts (fun b : nat => Ok b) DefaultBuilder h' (r 0) = Ok (s, q)) /\
     exists s q, task_data (fun f : string => f) (fun s => Some s) "1" opts (fun b : nat => Ok b) (reading D) h' (r 0) = Ok (s, q)) /\
  In ("shuffle_batch_size", VUsize 1000) c /\ exists v, get_opt opts BATCH_SIZE = Some v.
Proof.
  eexists. split; [repeat constructor|]. split; [apply distributed_lawful; eauto|]. split; [now left|].
  split; [intros es [E|[]]; now injection E as <-|]. split; [now left|]. split; [apply distributed_plain|].
  split; [intros Q es k v n [E|[]] HQ; injection E as <- <-; congruence|]. split; [vm_compute; reflexivity|].
  split; [intros n v [E|[]]; now injection E as <- <-|].
  split; [eexists; split; [vm_compute; reflexivity|]; split; do 2 eexists; vm_compute; reflexivity|].
  split; [vm_compute; tauto|]. now eexists.
Qed.
End WSessionEx.

(** A batch size for shuffles of 0 does not mean the coordinator's batch size, but DataFusion's default. *)
Theorem C94_inherited_batch_size_refuted : exists co h s p v v',
  plan_request_headers (co_session co) = Ok h /\ In ("shuffle_batch_size", Some "0") (entries WSessionEx.D (default WSessionEx.D)) /\
  In ("distributed", entries WSessionEx.D (default WSessionEx.D)) (extensions (co_session co)) /\
  task_data (fun f : string => f) (fun s => Some s) "1" WSessionEx.opts (fun b : nat => Ok b) DefaultBuilder h (WSessionEx.r 0) = Ok (s, p) /\
  get_opt (co_options co) BATCH_SIZE = Some v /\ get_opt (w_options s) BATCH_SIZE = Some v' /\ v <> v'.
Proof.
  exists (mkCoordinator [(BATCH_SIZE, "500")] (mkSession [("distributed", entries WSessionEx.D (default WSessionEx.D))] ["distributed"] None)).
  do 5 eexists. split; [vm_compute; reflexivity|]. split; [vm_compute; tauto|]. split; [now left|].
  split; [vm_compute; reflexivity|]. split; [reflexivity|]. split; [vm_compute; reflexivity|]. discriminate.
Qed.
Print Assumptions C94_inherited_batch_size_refuted.

(** A session builder that makes a session of its own is accepted, and every task believes that it is the only one: each of the two tasks
    of a stage reads all rows of a shuffle, so that they are returned twice. *)
Theorem C94_replaced_session_refuted : exists (b : builder nat nat string) s0 s1 p,
  WSessionEx.setup b 0 = Ok (s0, p) /\ WSessionEx.setup b 1 = Ok (s1, p) /\
  exists (sh : shuffle nat) (inp : splan nat) (rows : list nat),
    shuffle_try_new (SRepart (HashP (fun x => x) 1) inp) 1 = Ok sh /\ exec inp 0 = Ok rows /\ parts inp = 1 /\ rows <> [] /\
    forall s, In s [s0; s1] ->
      shuffle_execute (fun _ => SRepart (HashP (fun x => x) 1) inp) (shuffle_with_input_stage sh (Remote 1)) (from_ctx s) 0 = Ok [rows].
Proof.
  exists (replacing (mkWsession WSessionEx.opts None [] None None None None (fun b => Ok b))).
  do 3 eexists. split; [vm_compute; reflexivity|]. split; [vm_compute; reflexivity|].
  exists (mkShuffle (HashP (fun x => x) 1) (Local (SRepart (HashP (fun x => x) 1) (SOther 1 (fun _ => [5; 6; 7]))) 1) 1).
  exists (SOther 1 (fun _ => [5; 6; 7])), [5; 6; 7]. split; [reflexivity|]. split; [reflexivity|]. split; [reflexivity|]. split; [discriminate|].
  intros s [<-|[<-|[]]]; reflexivity.
Qed.
Print Assumptions C94_replaced_session_refuted.
