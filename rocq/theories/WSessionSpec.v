(** What the theorems of C94 say about the sessions of workers. *)
From Verif Require Import Base NetModel HeaderModel WSessionModel.
From Coq Require Import String NArith.

Section Spec.
Context {bytes plan f64 : Type}.
Notation session := (wsession bytes plan f64).

(** Nothing that tells the task its place in the query is touched. *)
Definition same_place (s s' : session) : Prop := w_task s' = w_task s /\ w_feeds s' = w_feeds s /\ w_worker s' = w_worker s.
(** A session builder that adds to the session it is given. *)
Definition careful (b : builder bytes plan f64) : Prop :=
  forall s h s', build_session_state b s h = Ok s' -> same_place s s'.

(** The handlers, one after the other, each with the plan that the one before it returned. *)
Inductive passes (o : options) : list (plan -> options -> Res plan) -> plan -> plan -> Prop :=
| passes_none p : passes o [] p p
| passes_one hd hs p p1 q : hd p o = Ok p1 -> passes o hs p1 q -> passes o (hd :: hs) p q.

(** A session builder of the user that registers these handlers, in this order. *)
Definition registering (hs : list (plan -> options -> Res plan)) : builder bytes plan f64 :=
  FnBuilder (fun s _ => Ok (fold_left (fun s hd => with_rewrite_handler hd s) hs s)).
(** A session builder that reads an extension of the user from the headers. *)
Definition reading (T : extension) : builder bytes plan f64 := FnBuilder (fun s h => with_extension T h s).
(** A session builder that makes a session of its own. *)
Definition replacing (s : session) : builder bytes plan f64 := FnBuilder (fun _ _ => Ok s).
End Spec.

(** The coordinator: DataFusion's options and what is in HeaderModel's session. *)
Record coordinator := mkCoordinator { co_options : options; co_session : session }.
