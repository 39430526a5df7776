(** Theorems about configuration and user headers: C41, C42, C57. *)
From Verif Require Import Base HeaderModel HeaderSpec HeaderProofs.
From Coq Require Import Ascii String NArith.
Local Open Scope string_scope.

(** ** C41: configuration set on the coordinator reaches the worker unchanged *)

(** Holds for every lawful extension with plain keys, when no other extension and no user header looks like one
    of its options: options with a value have that value on the worker, options without one keep what the
    worker had. Missing: keys that are not plain, and options set to no value; see the refutations. *)
Theorem C41_options_restored_partial : forall T ok s s0 cfg p cfg' h,
  lawful T ok -> ok s -> ok s0 ->
  In (PREFIX T, entries T s) (extensions cfg) -> (forall es, In (PREFIX T, es) (extensions cfg) -> es = entries T s) ->
  In (PREFIX T) (prefixes cfg) ->
  (forall k, In k (map fst (entries T (default T))) -> plain_key T k) ->
  (forall Q es k v n, In (Q, es) (extensions cfg) -> Q <> PREFIX T -> In (k, Some v) es ->
     header_name (FLIGHT_METADATA_CONFIG_PREFIX ++ Q ++ "." ++ k) = Ok n -> looks_like_option T n = false) ->
  set_passthrough_headers cfg p = Ok cfg' -> (forall n v, In (n, v) p -> starts_with (PREFIX T ++ ".") n = false) ->
  plan_request_headers cfg' = Ok h ->
  exists s', from_headers T s0 h = Ok s' /\ forall k,
    (forall v, In (k, Some v) (entries T s) -> In (k, Some v) (entries T s')) /\
    (In (k, None) (entries T s) -> forall v, In (k, v) (entries T s') <-> In (k, v) (entries T s0)).
Proof.
  intros T ok s s0 cfg p cfg' h HT Hs Hs0 H1 H2 H3 H4 H5 H6 H7 H8.
  destruct (restored T ok s s0 cfg p cfg' h HT Hs Hs0 H1 H2 H3 H4 H5 H6 H7 H8) as (s' & E & _ & R). eauto.
Qed.

(** The engine's own configuration [c] (any values of the right types) is restored in full in the session that a
    worker makes for a plan, and the worker's own requests hand it on. *)
Theorem C41_distributed_config_restored : forall (f64 : Type) (f64_text : f64 -> string) (f64_parse : string -> option f64),
  (forall f, exists f', f64_parse (f64_text f) = Some f' /\ f64_text f' = f64_text f) ->
  forall factor c cfg p cfg' h, let T := distributed f64_text f64_parse factor in
  typed_like (distributed_default factor) c ->
  In ("distributed", entries T c) (extensions cfg) -> (forall es, In ("distributed", es) (extensions cfg) -> es = entries T c) ->
  In "distributed" (prefixes cfg) ->
  (forall Q es k v n, In (Q, es) (extensions cfg) -> Q <> "distributed" -> In (k, Some v) es ->
     header_name (FLIGHT_METADATA_CONFIG_PREFIX ++ Q ++ "." ++ k) = Ok n -> looks_like_option T n = false) ->
  set_passthrough_headers cfg p = Ok cfg' -> (forall n v, In (n, v) p -> starts_with "distributed." n = false) ->
  plan_request_headers cfg' = Ok h ->
  exists w, worker_session T h = Ok w /\ extensions w = [("distributed", entries T c)] /\ In "distributed" (prefixes w).
Proof.
  intros f64 f64_text f64_parse Hlaw factor c cfg p cfg' h T Hc H1 H2 H3 H5 H6 H7 H8.
  pose proof (distributed_lawful f64_text f64_parse Hlaw factor) as HT.
  destruct (restored T _ c (default T) cfg p cfg' h HT Hc (proj1 HT) H1 H2 H3 (distributed_plain f64_text f64_parse factor) H5 H6 H7 H8) as (s' & E & Hok & R).
  exists (mkSession [("distributed", entries T s')] ["distributed"] None).
  split; [unfold worker_session; rewrite E; reflexivity|]. split; [|now left]. cbn [extensions]. do 2 f_equal. destruct HT as (_ & Hnd & Hkeys & _). apply same_entries.
  - transitivity (map fst (entries T (default T))); [exact (Hkeys s' Hok)|symmetry; exact (Hkeys c Hc)].
  - replace (map fst (entries T c)) with (map fst (entries T (default T))) by (symmetry; exact (Hkeys c Hc)). exact Hnd.
  - intros k v Hi. apply in_map_iff in Hi as ([k0 v0] & Ex & _). injection Ex as _ <-. eauto.
  - intros k t. apply R.
Qed.

(** ** C42: user headers cannot change engine configuration *)

(** Accepted headers whose names do not start with the extension's prefix and a dot change nothing. Missing:
    names that do, see the refutation. *)
Theorem C42_no_effect_partial : forall T s0 cfg p cfg' h h',
  passthrough cfg = None -> set_passthrough_headers cfg p = Ok cfg' ->
  (forall n v, In (n, v) p -> starts_with (PREFIX T ++ ".") n = false) ->
  plan_request_headers cfg = Ok h -> plan_request_headers cfg' = Ok h' ->
  from_headers T s0 h' = from_headers T s0 h.
Proof.
  intros T s0 cfg p cfg' h h' Hn Hp Hfree Hh Hh'. destruct (plan_headers _ _ _ _ Hp Hh') as (h0 & E0 & ->).
  unfold plan_request_headers in Hh. rewrite E0 in Hh. cbn [bind] in Hh. unfold get_passthrough_headers in Hh. rewrite Hn in Hh.
  unfold extend in Hh. rewrite filter_all, app_nil_r in Hh by (intros [? ?] _; reflexivity). assert (h0 = h) by congruence. subst h0.
  unfold from_headers. rewrite foldM_app. destruct (foldM _ h s0); cbn [bind]; try reflexivity. apply read_others.
  intros n v Hin. destruct (passthrough_spec _ _ _ Hp) as (_ & _ & _ & Hnf). rewrite (passthrough_not_option T n (Hnf n v Hin)). exact (Hfree n v Hin).
Qed.

(** ** C57: user headers accompany every request to a worker *)

(** Requests of the coordinator carry all of them, in both kinds of request. Missing: requests of workers. *)
Theorem C57_coordinator_requests_partial : forall cfg p cfg' h n v,
  set_passthrough_headers cfg p = Ok cfg' -> In (n, v) p ->
  In (n, v) (data_request_headers cfg') /\ (plan_request_headers cfg' = Ok h -> In (n, v) h).
Proof.
  intros cfg p cfg' h n v Hp Hin. destruct (passthrough_spec _ _ _ Hp) as (_ & _ & E & _). split.
  - unfold data_request_headers. now rewrite E.
  - intros Hh. destruct (plan_headers _ _ _ _ Hp Hh) as (h0 & _ & ->). apply in_app_iff. now right.
Qed.

(** The requests of workers to other workers carry none of them, unless the worker's own session builder copies
    them: the session made for a plan holds no user headers, whatever came with the plan. *)
Theorem C57_between_workers_refuted : forall T h w, worker_session T h = Ok w -> data_request_headers w = [].
Proof.
  intros T h w H. unfold worker_session in H. destruct (from_headers T (default T) h); cbn [bind] in H; try discriminate.
  now injection H as <-.
Qed.

(** ** Concrete cases *)
Module HeaderEx.

(** Doubles as decimal texts are enough for examples. *)
Definition D : extension := distributed (fun f : string => f) (fun s => Some s) "1".
Definition c : state D := Eval vm_compute in
  match set D (default D) "collect_metrics" "false" with Ok c => c | _ => default D end.
Definition cfg := mkSession [("distributed", entries D c)] ["distributed"] None.

Example C41_case : exists cfg' h c', set_passthrough_headers cfg [("x-user", "me")] = Ok cfg' /\ plan_request_headers cfg' = Ok h /\
  In ("x-datafusion-distributed-config-distributed.collect_metrics", "false") h /\
  from_headers D (default D) h = Ok c' /\ entries D c' = entries D c /\ entries D c' <> entries D (default D).
Proof.
  eexists _, _, _. split; [vm_compute; reflexivity|]. split; [vm_compute; reflexivity|]. split; [cbn; tauto|].
  split; [vm_compute; reflexivity|]. split; [vm_compute; reflexivity|]. vm_compute. discriminate.
Qed.
Example C41_case_typed : typed_like (distributed_default "1") c.
Proof. repeat constructor. Qed.

(** A header without the reserved prefix is accepted, and turns off metrics collection on the worker. *)
Theorem C42_user_header_changes_config_refuted : exists p cfg0 cfg' h h' c0 c1,
  passthrough cfg0 = None /\ set_passthrough_headers cfg0 p = Ok cfg' /\
  plan_request_headers cfg0 = Ok h /\ plan_request_headers cfg' = Ok h' /\
  from_headers D (default D) h = Ok c0 /\ from_headers D (default D) h' = Ok c1 /\
  In ("collect_metrics", Some "true") (entries D c0) /\ In ("collect_metrics", Some "false") (entries D c1).
Proof.
  exists [("distributed.collect_metrics", "false")], (mkSession [("distributed", entries D (default D))] ["distributed"] None).
  do 5 eexists. repeat (split; [vm_compute; reflexivity|]). vm_compute. intuition.
Qed.
(** Another one makes every plan request fail on the worker. *)
Example C42_user_header_fails_query : exists cfg' h e,
  set_passthrough_headers (mkSession [("distributed", entries D (default D))] ["distributed"] None) [("distributed.max_tasks_per_stage", "many")] = Ok cfg' /\
  plan_request_headers cfg' = Ok h /\ from_headers D (default D) h = Err e.
Proof. do 3 eexists. repeat (split; [vm_compute; reflexivity|]). vm_compute. reflexivity. Qed.

(** An extension with three optional options of type string. *)
Definition set_opt (keys : list string) (s : list (string * option string)) (k v : string) : Res (list (string * option string)) :=
  Ok (map (fun '(k', v') => if k' =? k then (k', Some v) else (k', v')) s).
Definition ext (keys : list (string * option string)) : extension := mkExtension "app" (list (string * option string)) keys (fun s => s) (set_opt (map fst keys)).
Definition sent_and_read (dflt s : list (string * option string)) : Res (list (string * option string)) :=
  let* h := plan_request_headers (mkSession [("app", s)] ["app"] None) in from_headers (ext dflt) dflt h.

(** Keys with a capital letter are lost, since header names have none. *)
Theorem C41_capital_letter_refuted : exists dflt s s',
  sent_and_read dflt s = Ok s' /\ In ("batchSize", Some "7") s /\ ~ In ("batchSize", Some "7") s'.
Proof.
  exists [("batchSize", Some "1")], [("batchSize", Some "7")]. eexists. split; [vm_compute; reflexivity|]. split; [now left|]. vm_compute. intuition discriminate.
Qed.
(** An option switched off on the coordinator is on again on the worker. *)
Theorem C41_unset_option_refuted : exists dflt s s',
  sent_and_read dflt s = Ok s' /\ In ("cache", None) s /\ In ("cache", Some "on") s'.
Proof. exists [("cache", Some "on")], [("cache", None)]. eexists. split; [vm_compute; reflexivity|]. split; now left. Qed.
(** An option whose key starts with the prefix overwrites another option. *)
Theorem C41_repeated_prefix_refuted : exists dflt s s',
  sent_and_read dflt s = Ok s' /\ In ("mode", Some "a") s /\ In ("app.mode", Some "b") s /\ In ("mode", Some "b") s'.
Proof.
  exists [("mode", Some "x"); ("app.mode", Some "x")], [("mode", Some "a"); ("app.mode", Some "b")]. eexists. split; [vm_compute; reflexivity|].
  vm_compute. intuition.
Qed.
(** Two extensions, one with prefix "app" and key "db.url", one with prefix "app.db" and key "url". *)
Theorem C41_nested_prefixes_refuted : exists (h : headers) s',
  plan_request_headers (mkSession [("app", [("db.url", Some "one")]); ("app.db", [("url", Some "two")])] ["app"; "app.db"] None) = Ok h /\
  from_headers (ext [("db.url", None)]) [("db.url", None)] h = Ok s' /\ In ("db.url", Some "two") s'.
Proof. do 2 eexists. split; [vm_compute; reflexivity|]. split; [vm_compute; reflexivity|]. now left. Qed.

(** A plan with a user header reaches a worker; its requests to other workers have no headers. *)
Example C57_case : exists cfg' h w, set_passthrough_headers cfg [("x-user", "me")] = Ok cfg' /\
  plan_request_headers cfg' = Ok h /\ In ("x-user", "me") h /\ worker_session D h = Ok w /\ data_request_headers w = [].
Proof.
  do 3 eexists. split; [vm_compute; reflexivity|]. split; [vm_compute; reflexivity|]. split; [cbn; tauto|]. split; vm_compute; reflexivity.
Qed.
End HeaderEx.

Print Assumptions C41_options_restored_partial.
Print Assumptions C41_distributed_config_restored.
Print Assumptions HeaderEx.C41_capital_letter_refuted.
Print Assumptions HeaderEx.C41_unset_option_refuted.
Print Assumptions HeaderEx.C41_repeated_prefix_refuted.
Print Assumptions HeaderEx.C41_nested_prefixes_refuted.
Print Assumptions C42_no_effect_partial.
Print Assumptions HeaderEx.C42_user_header_changes_config_refuted.
Print Assumptions C57_coordinator_requests_partial.
Print Assumptions C57_between_workers_refuted.
