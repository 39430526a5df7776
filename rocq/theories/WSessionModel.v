(** Model of the session in which a worker runs a task: worker/impl_coordinator_channel.rs:24-99 (up to the answer),
    worker/session_builder.rs, events/common.rs, events/worker_plan_rewrite.rs:62-84, stage.rs:215-224. *)
From Verif Require Import Base NetModel HeaderModel.
From Coq Require Import String NArith.
Local Open Scope string_scope.

(** DataFusion's [ConfigOptions] without extensions: keys with the texts of their values. *)
Definition options := list (string * string).
Definition get_opt (o : options) (k : string) : option string :=
  match find (fun x => fst x =? k) o with Some (_, v) => Some v | None => None end.
Definition set_opt (o : options) (k v : string) : options := map (fun x => if fst x =? k then (k, v) else x) o.
Definition BATCH_SIZE : string := "datafusion.execution.batch_size".

(** events/common.rs:4-7 [EventHandlerChain]. *)
Record chain (H : Type) := mkChain { builtin : list H; custom : list H }.
Arguments mkChain {H}. Arguments builtin {H}. Arguments custom {H}.
Definition empty_chain {H} : chain H := mkChain [] [].
(** Lines 54-61 and 74-81. *)
Definition push_builtin {H} (c : chain H) (h : H) : chain H := mkChain (builtin c ++ [h])%list (custom c).
Definition push_custom {H} (c : chain H) (h : H) : chain H := mkChain (builtin c) (custom c ++ [h])%list.
(** Lines 41-50. *)
Definition try_fold {H T} (c : chain H) (v : T) (f : T -> H -> Res T) : Res T := foldM f (custom c ++ builtin c)%list v.

Section Session.
(** Plans as sent and as decoded. *)
Context {bytes plan : Type}.
(** Doubles and their texts, as in HeaderModel. *)
Context {f64 : Type} (f64_text : f64 -> string) (f64_parse : string -> option f64) (factor : f64).
(** [ConfigOptions::default()]. *)
Variable default_options : options.

(** What of the worker's [SessionState] (with its [SessionConfig]) matters here. Functions, optimiser rules and the runtime
    environment are in [w_decode], which says how a plan is decoded in the session; it fails without the codecs needed. *)
Record wsession := mkWsession {
  w_options : options;
  w_distributed : option (@config f64);
  w_user : list (string * list (string * option string));  (* extensions of the user, by prefix *)
  w_task : option TaskCtx;                                 (* extension DistributedTaskContext *)
  w_feeds : option (list (nat * nat));                     (* extension RemoteWorkUnitFeedRxs: ids and partitions *)
  w_worker : option string;                                (* extension LocalWorkerContext: the worker's own URL *)
  w_rewrite : option (chain (plan -> options -> Res plan));(* extension WorkerPlanRewriteHandlers *)
  w_decode : bytes -> Res plan
}.

(** worker_channel.rs [SetPlanRequest]. *)
Record set_plan := mkSetPlan {
  sp_plan : bytes; sp_task_number : nat; sp_task_count : nat; sp_url : string; sp_feeds : list (nat * nat)
}.

Definition usize_option (c : @config f64) (k : string) : N :=
  match find (fun x => fst x =? k) c with Some (_, VUsize n) => n | _ => 0%N end.

(** impl_coordinator_channel.rs:36-39: the feeds that were declared, one receiver for each partition. *)
Definition receivers (decls : list (nat * nat)) : list (nat * nat) :=
  flat_map (fun '(id, n) => map (pair id) (seq 0 n)) decls.

(** Lines 45-63. DataFusion's [with_batch_size] panics for 0, which is excluded by the test in front of it. [default_decode]: with
    DataFusion's default features. *)
Definition given_session (default_decode : bytes -> Res plan) (h : headers) (r : set_plan) : Res wsession :=
  let* d := from_headers (distributed f64_text f64_parse factor) (distributed_default factor) h in
  let n := usize_option d "shuffle_batch_size" in
  Ok (mkWsession (if (n =? 0)%N then default_options else set_opt default_options BATCH_SIZE (usize_text n))
        (Some d) [] (Some (mkCtx (sp_task_number r) (sp_task_count r))) (Some (receivers (sp_feeds r))) (Some (sp_url r)) None default_decode).

(** session_builder.rs: the default (lines 66-78), any function (80-93) and a mapped builder (96-160). Building a state from a builder
    and a builder from a state ([SessionStateBuilder::new_from_existing]) keep all of the above. *)
Inductive builder :=
| DefaultBuilder
| FnBuilder (f : wsession -> headers -> Res wsession)
| Mapped (inner : builder) (f : wsession -> Res wsession).
Fixpoint build_session_state (b : builder) (s : wsession) (h : headers) : Res wsession :=
  match b with
  | DefaultBuilder => Ok s
  | FnBuilder f => f s h
  | Mapped inner f => let* s := build_session_state inner s h in f s
  end.

(** worker_plan_rewrite.rs:66-83. *)
Definition rewrite_plan (s : wsession) (p : plan) : Res plan :=
  match w_rewrite s with
  | Some c => try_fold c p (fun p handler => handler p (w_options s))
  | None => Ok p
  end.

(** impl_coordinator_channel.rs:45-99 [task_data]: the session of the task and its plan, or the error that is stored for the task and
    answered. Starting the samplers is in SamplerModel. *)
Definition task_data (default_decode : bytes -> Res plan) (b : builder) (h : headers) (r : set_plan) : Res (wsession * plan) :=
  let* s := given_session default_decode h r in
  let* s := build_session_state b s h in
  let* p := w_decode s (sp_plan r) in
  let* p := rewrite_plan s p in
  Ok (s, p).

(** stage.rs:215-224: what boundaries, unions and leaves ask for. *)
Definition from_ctx (s : wsession) : TaskCtx := match w_task s with Some c => c | None => mkCtx 0 1 end.

(** distributed_ext.rs: [with_distributed_worker_plan_rewrite_handler] on a builder. *)
Definition with_rewrite_handler (hd : plan -> options -> Res plan) (s : wsession) : wsession :=
  mkWsession (w_options s) (w_distributed s) (w_user s) (w_task s) (w_feeds s) (w_worker s)
    (Some (push_custom (match w_rewrite s with Some c => c | None => empty_chain end) hd)) (w_decode s).

(** config_extension_ext.rs:24-88 [with_distributed_option_extension_from_headers::<T>] on a builder without the extension. *)
Definition with_extension (T : extension) (h : headers) (s : wsession) : Res wsession :=
  let* e := from_headers T (HeaderModel.default T) h in
  Ok (mkWsession (w_options s) (w_distributed s) (w_user s ++ [(PREFIX T, HeaderModel.entries T e)])%list (w_task s) (w_feeds s) (w_worker s)
        (w_rewrite s) (w_decode s)).
End Session.
Arguments wsession : clear implicits.
Arguments builder : clear implicits.
