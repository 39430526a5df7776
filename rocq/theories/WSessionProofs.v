(** Lemmas for C94. *)
From Verif Require Import Base NetModel NetSpec HeaderModel HeaderSpec HeaderProofs WSessionModel WSessionSpec.
From Coq Require Import String NArith Lia.
Local Open Scope string_scope.

Section Proofs.
Context {bytes plan f64 : Type}.
Notation session := (wsession bytes plan f64).

Lemma same_place_refl (s : session) : same_place s s.
Proof. repeat split. Qed.
Lemma same_place_trans (a b c : session) : same_place a b -> same_place b c -> same_place a c.
Proof. unfold same_place. intuition congruence. Qed.

Lemma registered (hs : list (plan -> options -> Res plan)) : forall s : session,
  let s' := fold_left (fun s hd => with_rewrite_handler hd s) hs s in
  same_place s s' /\ w_options s' = w_options s /\ w_decode s' = w_decode s /\
  (hs <> [] -> exists c, w_rewrite s' = Some c /\
     custom c = (match w_rewrite s with Some c => custom c | None => [] end ++ hs)%list /\
     builtin c = match w_rewrite s with Some c => builtin c | None => [] end) /\
  (hs = [] -> w_rewrite s' = w_rewrite s).
Proof.
  induction hs as [|hd hs IH]; intros s; cbn [fold_left].
  { repeat split; try easy. }
  destruct (IH (with_rewrite_handler hd s)) as (P & O & D & R & R0). cbv zeta. split; [exact P|]. split; [exact O|]. split; [exact D|].
  split; [|discriminate]. intros _. destruct hs as [|hd' hs'].
  - cbn. eexists. split; [reflexivity|]. destruct (w_rewrite s); cbn; auto.
  - destruct (R ltac:(discriminate)) as (c & E & C & B). exists c. split; [exact E|]. rewrite C, B.
    unfold with_rewrite_handler, push_custom; cbn [w_rewrite custom builtin].
    destruct (w_rewrite s) as [c0|]; cbn [custom builtin empty_chain]; rewrite <- ?app_assoc; split; reflexivity.
Qed.

Lemma passes_fold (o : options) hs (p q : plan) : passes o hs p q -> foldM (fun p hd => hd p o) hs p = Ok q.
Proof. induction 1 as [|hd hs p p1 q E _ IH]; cbn; [reflexivity|]. now rewrite E. Qed.
Lemma fold_passes (o : options) hs : forall (p q : plan), foldM (fun p hd => hd p o) hs p = Ok q -> passes o hs p q.
Proof.
  induction hs as [|hd hs IH]; intros p q H; cbn in H; [injection H as ->; constructor|].
  destruct (hd p o) as [p1| |] eqn:E; cbn in H; try discriminate. econstructor; eauto.
Qed.
Lemma foldM_error {A B} (f : A -> B -> Res A) l1 x l2 a b e : foldM f l1 a = Ok b -> f b x = Err e -> foldM f (l1 ++ x :: l2)%list a = Err e.
Proof. intros H E. rewrite foldM_app, H. cbn. now rewrite E. Qed.

(** The texts of the options determine the numbers. *)
Lemma texts_numbers (f64_text : f64 -> string) (d : @config f64) : forall c c' k, typed_like d c -> typed_like d c' ->
  map (fun '(k, v) => (k, Some (text f64_text v))) c' = map (fun '(k, v) => (k, Some (text f64_text v))) c ->
  usize_option c' k = usize_option c k.
Proof.
  induction d as [|[kd vd] d IH]; intros c c' k T T' E.
  { inversion T; inversion T'; subst. reflexivity. }
  destruct c as [|[k1 v1] c]; [inversion T|]. destruct c' as [|[k2 v2] c']; [inversion T'|].
  assert (A : (kd = k1 /\ same_type v1 vd) /\ typed_like d c) by (inversion T; auto).
  assert (A' : (kd = k2 /\ same_type v2 vd) /\ typed_like d c') by (inversion T'; auto).
  destruct A as [[<- S1] T1], A' as [[<- S2] T2]. cbn [map] in E.
  pose proof (f_equal (@tl _) E) as Et. cbn [tl] in Et. pose proof (f_equal (@hd_error _) E) as Eh. cbn [hd_error] in Eh.
  assert (Ev : text f64_text v2 = text f64_text v1) by congruence.
  unfold usize_option. cbn [find fst]. destruct (kd =? k).
  - destruct v1, v2, vd; cbn in S1, S2; try contradiction; try reflexivity. cbn in Ev.
    pose proof (usize_roundtrip n S1) as R1. pose proof (usize_roundtrip n0 S2) as R2. rewrite Ev in R2. congruence.
  - exact (IH c c' k T1 T2 Et).
Qed.

Lemma get_set (o : options) k v x : get_opt o k = Some x -> get_opt (set_opt o k v) k = Some v.
Proof.
  unfold get_opt, set_opt. induction o as [|[k' v'] o IH]; cbn; [discriminate|]. destruct (k' =? k) eqn:E; cbn.
  - now rewrite String.eqb_refl.
  - now rewrite E.
Qed.
Lemma get_set_other (o : options) k v k' : k' <> k -> get_opt (set_opt o k v) k' = get_opt o k'.
Proof.
  intros N. unfold get_opt, set_opt. induction o as [|[k0 v0] o IH]; cbn; [reflexivity|]. destruct (k0 =? k) eqn:E; cbn.
  - apply String.eqb_eq in E as ->. replace (k =? k') with false; [exact IH|]. symmetry. apply String.eqb_neq. congruence.
  - destruct (k0 =? k'); [reflexivity|exact IH].
Qed.
End Proofs.
