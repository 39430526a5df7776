(** Vocabulary of the theorems on shared operator instances. *)
From Verif Require Import Base NetModel CiuModel EventsModel PlanModel PlanSpec ShareModel.

(** Operators the coordinator passes on unchanged: neither a union, nor a per-task leaf, nor an operator with a
    work unit feed. *)
Definition has_feed (n : plan) : Prop := match n with POp o _ => op_feed o <> None | _ => False end.
Definition ordinary (n : plan) : Prop :=
  match n with
  | POp o _ => op_feed o = None
  | PBoundary _ _ _ _ | PEmpty _ => True
  | PCiu _ _ _ | PDle _ _ _ => False
  end.

(** Nothing that runs below [p], [p] included, is adapted to the task. *)
Definition same_for_all_tasks (p : plan) (ctx : TaskCtx) : Prop :=
  forall at_ n c, runs_at p ctx at_ n c -> ordinary n.

(** No operator strictly above position [at_] has a feed. *)
Definition no_feed_above (p : plan) (ctx : TaskCtx) (at_ : pos) : Prop :=
  forall above below n c, at_ = above ++ below -> below <> [] -> runs_at p ctx above n c -> ~ has_feed n.

(** Two lists of instances have one in common. *)
Definition in_common (a : addr) (l l' : list (pos * addr)) : Prop :=
  (exists x, In (x, a) l) /\ (exists y, In (y, a) l').

(** The task's URL is the one the coordinator itself is reached at. *)
Definition local (self_url : option nat) (url : nat) : Prop := self_url = Some url.

(** The instances two tasks are both given when they run inside the coordinator's process: an operator that neither
    task had adapted, nor anything below it, nor fed from above; or a per-task leaf for which they are the same
    task. *)
Definition given_to_both (p : plan) (ctx ctx' : TaskCtx) (a : addr) : Prop :=
  match a with
  | ShareModel.Base at_ =>
      (exists n c, runs_at p ctx at_ n c /\ same_for_all_tasks n c /\ no_feed_above p ctx at_) /\
      (exists n c, runs_at p ctx' at_ n c /\ same_for_all_tasks n c /\ no_feed_above p ctx' at_)
  | OfVariant at_ v sub =>
      exists k o vs c k' o' vs' c' w w',
        runs_at p ctx at_ (PDle k o vs) c /\ no_feed_above p ctx at_ /\
        runs_at p ctx' at_ (PDle k' o' vs') c' /\ no_feed_above p ctx' at_ /\
        v = task_index c /\ v = task_index c' /\
        nth_error vs v = Some w /\ In sub (all_positions w) /\ nth_error vs' v = Some w' /\ In sub (all_positions w')
  | Made _ _ => False
  end.

(** Every leaf that runs in the task is a per-task leaf or has a feed: the stage reads no other stage and no table
    that every task would read as a whole. *)
Definition all_leaves_adapted (p : plan) (ctx : TaskCtx) : Prop :=
  forall at_ n c, runs_at p ctx at_ n c -> ordinary n -> exists o cs, n = POp o cs /\ cs <> [].

(** The tasks of a union in which one of its children runs are numbered differently. *)
Definition own_numbers (m : list slot) : Prop :=
  forall i j si sj ch ci cj, i <> j -> nth_error m i = Some si -> nth_error m j = Some sj ->
    In (ch, ci) si -> In (ch, cj) sj -> task_index ci <> task_index cj.
Definition own_numbers_everywhere (p : plan) (ctx : TaskCtx) : Prop :=
  forall at_ k m cs c, runs_at p ctx at_ (PCiu k m cs) c -> own_numbers m.
