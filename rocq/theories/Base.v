(** Common vocabulary: results, bags, stream merges and list lemmas used by all the models. *)
From Coq Require Export List Arith Lia Permutation Bool String.
Export ListNotations.
Open Scope list_scope.
Open Scope nat_scope.

(** Outcome of a Rust call: a value, a returned error ([Err]) or a panic (index out of bounds,
    division by zero, unwrap on None, arithmetic underflow). *)
Inductive Res (A : Type) : Type :=
| Ok (a : A)
| Err (msg : string)
| Panic (msg : string).
Arguments Ok {A} a.
Arguments Err {A} msg.
Arguments Panic {A} msg.

Definition bind {A B} (r : Res A) (f : A -> Res B) : Res B :=
  match r with
  | Ok a => f a
  | Err e => Err e
  | Panic e => Panic e
  end.

Notation "'let*' x ':=' r 'in' k" := (bind r (fun x => k))
  (at level 200, x pattern, r at level 100, k at level 200).

Definition is_ok {A} (r : Res A) : bool := match r with Ok _ => true | _ => false end.

(** Left-to-right evaluation that stops at the first failure ([collect::<Result<Vec<_>>>] / [?]
    inside a [for] loop). *)
Fixpoint mapM {A B} (f : A -> Res B) (l : list A) : Res (list B) :=
  match l with
  | [] => Ok []
  | x :: xs =>
      let* y := f x in
      let* ys := mapM f xs in
      Ok (y :: ys)
  end.

(** [merge_of streams out]: [out] is one of the interleavings of [streams] that an unordered
    merge such as [futures::stream::select_all] may produce. *)
Inductive merge_of {A} : list (list A) -> list A -> Prop :=
| merge_done ss : Forall (eq []) ss -> merge_of ss []
| merge_step pre x s post out :
    merge_of (pre ++ s :: post) out ->
    merge_of (pre ++ (x :: s) :: post) (x :: out).

(** * Lemmas *)

Lemma mapM_ok_intro {A B} (f : A -> Res B) (g : A -> B) l :
  (forall x, In x l -> f x = Ok (g x)) -> mapM f l = Ok (map g l).
Proof.
  induction l as [|x xs IH]; cbn; intros H; [reflexivity|].
  rewrite (H x) by now left. cbn. rewrite IH; [reflexivity|]. intros y Hy. apply H. now right.
Qed.

Lemma mapM_ok_inv {A B} (f : A -> Res B) l ys :
  mapM f l = Ok ys -> Forall2 (fun x y => f x = Ok y) l ys.
Proof.
  revert ys. induction l as [|x xs IH]; cbn; intros ys H.
  - injection H as <-. constructor.
  - destruct (f x) as [y| |] eqn:Hfx; cbn in H; try discriminate.
    destruct (mapM f xs) as [ys'| |] eqn:Hm; cbn in H; try discriminate.
    injection H as <-. constructor; auto.
Qed.

Lemma mapM_length {A B} (f : A -> Res B) l ys : mapM f l = Ok ys -> List.length ys = List.length l.
Proof. intros H. apply mapM_ok_inv in H. induction H; cbn; congruence. Qed.

Lemma mapM_ext {A B} (f g : A -> Res B) l :
  (forall x, In x l -> f x = g x) -> mapM f l = mapM g l.
Proof.
  induction l as [|x xs IH]; cbn; intros H; [reflexivity|].
  rewrite (H x) by now left. rewrite IH; [reflexivity|]. intros y Hy; apply H; now right.
Qed.

Lemma mapM_nth_error {A B} (f : A -> Res B) l ys i x :
  mapM f l = Ok ys -> nth_error l i = Some x ->
  exists y, nth_error ys i = Some y /\ f x = Ok y.
Proof.
  revert ys i. induction l as [|a l IH]; cbn; intros ys i H Hn.
  - destruct i; discriminate.
  - destruct (f a) as [y| |] eqn:Hfa; cbn in H; try discriminate.
    destruct (mapM f l) as [ys'| |] eqn:Hm; cbn in H; try discriminate.
    injection H as <-. destruct i as [|i]; cbn in *.
    + injection Hn as ->. eauto.
    + eauto.
Qed.

Lemma nth_error_seq s n i : i < n -> nth_error (seq s n) i = Some (s + i).
Proof.
  revert s i. induction n as [|n IH]; intros s i Hi; [lia|].
  destruct i as [|i]; cbn; [f_equal; lia|]. rewrite IH by lia. f_equal; lia.
Qed.

Lemma nth_error_seq_none s n i : n <= i -> nth_error (seq s n) i = None.
Proof. intros H. apply nth_error_None. now rewrite seq_length. Qed.

Lemma seq_shift_map s n : seq s n = map (fun i => s + i) (seq 0 n).
Proof.
  induction n as [|n IH] in s |- *; [reflexivity|].
  cbn [seq map]. f_equal; [lia|]. rewrite IH. rewrite (IH 1). rewrite map_map.
  apply map_ext. intros; lia.
Qed.

Lemma seq_tile M P : flat_map (fun c => map (fun p => P * c + p) (seq 0 P)) (seq 0 M) = seq 0 (M * P).
Proof.
  induction M as [|M IH]; [reflexivity|].
  rewrite seq_S, flat_map_app, IH. cbn [flat_map]. rewrite app_nil_r. cbn [plus].
  rewrite <- seq_shift_map. replace (S M * P) with (M * P + P) by lia.
  rewrite seq_app. f_equal. f_equal; lia.
Qed.

Lemma flat_map_flat_map {A B C} (f : A -> list B) (g : B -> list C) l :
  flat_map g (flat_map f l) = flat_map (fun x => flat_map g (f x)) l.
Proof.
  induction l as [|x xs IH]; cbn; [reflexivity|]. now rewrite flat_map_app, IH.
Qed.

Lemma flat_map_map {A B C} (f : A -> B) (g : B -> list C) l :
  flat_map g (map f l) = flat_map (fun x => g (f x)) l.
Proof. induction l as [|x xs IH]; cbn; congruence. Qed.

Lemma map_flat_map {A B C} (f : A -> list B) (g : B -> C) l :
  map g (flat_map f l) = flat_map (fun x => map g (f x)) l.
Proof. induction l as [|x xs IH]; cbn; [reflexivity|]. now rewrite map_app, IH. Qed.

Lemma flat_map_single {A B} (f : A -> B) l : flat_map (fun x => [f x]) l = map f l.
Proof. induction l; cbn; congruence. Qed.

Lemma flat_map_ext_in {A B} (f g : A -> list B) l :
  (forall x, In x l -> f x = g x) -> flat_map f l = flat_map g l.
Proof.
  induction l as [|x xs IH]; cbn; intros H; [reflexivity|].
  rewrite (H x) by now left. rewrite IH; [reflexivity|]. intros; apply H; now right.
Qed.

Lemma flat_map_nil {A B} (l : list A) : flat_map (fun _ => @nil B) l = [].
Proof. induction l; cbn; auto. Qed.

Lemma flat_map_all_nil {A B} (f : A -> list B) l : (forall x, In x l -> f x = []) -> flat_map f l = [].
Proof.
  induction l as [|x l IH]; cbn; intros H; [reflexivity|]. rewrite H by now left. apply IH. intros; apply H; now right.
Qed.

Lemma flat_map_perm_ext {A B} (f g : A -> list B) l :
  (forall x, In x l -> Permutation (f x) (g x)) -> Permutation (flat_map f l) (flat_map g l).
Proof.
  induction l as [|x xs IH]; cbn; intros H; [reflexivity|].
  apply Permutation_app; [apply H; now left|]. apply IH. intros; apply H; now right.
Qed.

Lemma flat_map_perm_l {A B} (f : A -> list B) l l' :
  Permutation l l' -> Permutation (flat_map f l) (flat_map f l').
Proof.
  induction 1; cbn; try reflexivity.
  - now apply Permutation_app_head.
  - rewrite !app_assoc. apply Permutation_app_tail, Permutation_app_comm.
  - etransitivity; eauto.
Qed.

Lemma flat_map_app_fun {A B} (f g : A -> list B) l :
  Permutation (flat_map (fun x => f x ++ g x) l) (flat_map f l ++ flat_map g l).
Proof.
  induction l as [|x xs IH]; cbn; [reflexivity|].
  rewrite IH. rewrite <- !app_assoc. apply Permutation_app_head.
  rewrite !app_assoc. apply Permutation_app_tail, Permutation_app_comm.
Qed.

(** Swapping two nested loops only permutes what they emit. *)
Lemma flat_map_swap {A B C} (f : A -> B -> list C) la lb :
  Permutation (flat_map (fun a => flat_map (f a) lb) la)
              (flat_map (fun b => flat_map (fun a => f a b) la) lb).
Proof.
  induction la as [|a la IH]; cbn.
  - now rewrite flat_map_nil.
  - rewrite IH. symmetry. apply flat_map_app_fun.
Qed.

Lemma concat_map_flat_map {A B} (f : A -> list B) l : List.concat (map f l) = flat_map f l.
Proof. symmetry; apply flat_map_concat_map. Qed.

Lemma filter_flat_map {A B} (p : B -> bool) (f : A -> list B) l :
  filter p (flat_map f l) = flat_map (fun x => filter p (f x)) l.
Proof. induction l as [|x xs IH]; cbn; [reflexivity|]. now rewrite filter_app, IH. Qed.

(** Splitting a list by residue of a classifier and putting the classes together again. *)
Lemma filter_classes_perm {A} (k : A -> nat) n (l : list A) :
  (forall x, In x l -> k x < n) ->
  Permutation (flat_map (fun i => filter (fun x => k x =? i) l) (seq 0 n)) l.
Proof.
  induction l as [|x l IH]; intros H.
  - cbn. now rewrite flat_map_nil.
  - assert (Hx : k x < n) by (apply H; now left).
    assert (Hi : In (k x) (seq 0 n)) by (apply in_seq; lia).
    apply in_split in Hi. destruct Hi as [l1 [l2 Hs]].
    pose proof (seq_NoDup n 0) as Hnd. rewrite Hs in Hnd.
    transitivity (x :: flat_map (fun i => filter (fun x => k x =? i) l) (seq 0 n));
      [|apply perm_skip, IH; intros; apply H; now right].
    rewrite Hs, !flat_map_app. cbn [flat_map].
    assert (He : forall l0, ~ In (k x) l0 ->
              flat_map (fun i => filter (fun y => k y =? i) (x :: l)) l0 =
              flat_map (fun i => filter (fun y => k y =? i) l) l0).
    { intros l0 Hn. apply flat_map_ext_in. intros i Hi. cbn.
      destruct (Nat.eqb_spec (k x) i); [subst; contradiction|reflexivity]. }
    apply NoDup_remove_2 in Hnd. rewrite in_app_iff in Hnd.
    rewrite !He by tauto. cbn [filter]. rewrite Nat.eqb_refl.
    cbn [app]. symmetry. apply Permutation_middle.
Qed.

Lemma merge_perm {A} (ss : list (list A)) out : merge_of ss out -> Permutation out (List.concat ss).
Proof.
  induction 1 as [ss H|pre x s post out H IH].
  - induction H as [|s ss Hs _ IH]; cbn; [reflexivity|]. subst s. exact IH.
  - rewrite concat_app in *. cbn in *. rewrite IH.
    apply Permutation_middle.
Qed.

Lemma merge_cons_nil {A} (ss : list (list A)) out : merge_of ss out -> merge_of ([] :: ss) out.
Proof.
  induction 1 as [ss H|pre x s post out H IH].
  - constructor. constructor; auto.
  - change ([] :: pre ++ (x :: s) :: post) with (([] :: pre) ++ (x :: s) :: post).
    constructor. exact IH.
Qed.

Lemma merge_concat {A} (ss : list (list A)) : merge_of ss (List.concat ss).
Proof.
  induction ss as [|s ss IH]; cbn; [constructor; constructor|].
  induction s as [|x s IHs]; cbn; [now apply merge_cons_nil|].
  apply (merge_step [] x s ss). exact IHs.
Qed.

Lemma div_unique_pos a b q r : r < b -> a = b * q + r -> a / b = q.
Proof. intros Hr ->. symmetry. eapply Nat.div_unique; eauto. Qed.

Lemma mod_unique_pos a b q r : r < b -> a = b * q + r -> a mod b = r.
Proof. intros Hr ->. symmetry. eapply Nat.mod_unique; eauto. Qed.

Definition div_ceil (a b : nat) : nat := (a + b - 1) / b.

Lemma NoDup_Permutation_len {A} (l l' : list A) :
  NoDup l -> incl l l' -> List.length l' <= List.length l -> Permutation l l'.
Proof.
  intros Hnd Hi Hl. apply NoDup_Permutation_bis; auto.
Qed.

Lemma nth_ext_error {A} (l l' : list A) : (forall i, nth_error l i = nth_error l' i) -> l = l'.
Proof.
  revert l'. induction l as [|x l IH]; intros [|y l'] H.
  - reflexivity.
  - specialize (H 0). discriminate.
  - specialize (H 0). discriminate.
  - pose proof (H 0) as H0. cbn in H0. injection H0 as ->. f_equal. apply IH.
    intros i. exact (H (S i)).
Qed.

Lemma flat_map_seq_nth' {A B} (l : list A) (f : A -> list B) :
  flat_map (fun t => match nth_error l t with Some a => f a | None => [] end) (seq 0 (List.length l))
  = flat_map f l.
Proof.
  induction l as [|x l IH]; [reflexivity|]. cbn [List.length seq flat_map nth_error]. f_equal.
  rewrite <- seq_shift, flat_map_map. exact IH.
Qed.

Lemma Permutation_refl' {A} (l l' : list A) : l = l' -> Permutation l l'.
Proof. intros ->. reflexivity. Qed.

Lemma nth_error_repeat {A} (x : A) n i : i < n -> nth_error (repeat x n) i = Some x.
Proof.
  revert i. induction n as [|n IH]; intros [|i] H; cbn; try lia; [reflexivity|]. apply IH. lia.
Qed.

(** Reflexive transitive closure of a step relation: all histories of a system. *)
Inductive steps {S} (step : S -> S -> Prop) : S -> S -> Prop :=
| steps_refl s : steps step s s
| steps_next s1 s2 s3 : steps step s1 s2 -> step s2 s3 -> steps step s1 s3.

Lemma steps_invariant {S} (step : S -> S -> Prop) (I : S -> Prop) s0 s :
  I s0 -> (forall a b, I a -> step a b -> I b) -> steps step s0 s -> I s.
Proof. intros H0 Hs H. induction H; eauto. Qed.

Lemma steps_ind_fwd {S} (step : S -> S -> Prop) (s0 : S) (P : S -> Prop) :
  P s0 -> (forall a b, steps step s0 a -> P a -> step a b -> P b) -> forall s, steps step s0 s -> P s.
Proof. intros H0 Hs s H. induction H; eauto. Qed.

Lemma steps_trans {S} (step : S -> S -> Prop) a b c : steps step a b -> steps step b c -> steps step a c.
Proof. intros H1 H2. revert H1. induction H2 as [s|s1 s2 s3 H IH Hs]; intros H1; [exact H1|]. exact (steps_next step _ _ _ (IH H1) Hs). Qed.

Lemma steps_one {S} (step : S -> S -> Prop) a b : step a b -> steps step a b.
Proof. intros H. eapply steps_next; [apply steps_refl|assumption]. Qed.

Lemma NoDup_app_disjoint {A} (a b : list A) : NoDup a -> NoDup b -> (forall x, In x a -> ~ In x b) -> NoDup (a ++ b).
Proof.
  intros Ha Hb H. induction Ha as [|x a Hx Ha IH]; [assumption|]. cbn. constructor.
  - intros Hin. apply in_app_or in Hin. destruct Hin as [Hin|Hin]; [contradiction|]. apply (H x); [now left|assumption].
  - apply IH. intros y Hy. apply H. now right.
Qed.
