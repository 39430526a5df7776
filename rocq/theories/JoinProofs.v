(** Proofs about joins over split inputs. *)
From Verif Require Import Base JoinModel JoinSpec.

Section Join.
Context {row : Type}.
Implicit Types (c : condition row) (L R : list row).

Lemma pairs_app_r c L R1 R2 : Permutation (pairs c L (R1 ++ R2)) (pairs c L R1 ++ pairs c L R2).
Proof.
  unfold pairs. rewrite <- flat_map_app_fun. apply flat_map_perm_ext. intros l _. now rewrite flat_map_app.
Qed.

Lemma right_rows_app t c L R1 R2 : right_rows t c L (R1 ++ R2) = right_rows t c L R1 ++ right_rows t c L R2.
Proof.
  destruct t; cbn; try reflexivity; rewrite ?filter_app, ?map_app; reflexivity.
Qed.

Lemma safe_left_rows t c L R : is_left_broadcast_safe t = true -> left_rows t c L R = [].
Proof. destruct t; cbn; congruence. Qed.

Lemma join_safe_app t c L R1 R2 : is_left_broadcast_safe t = true ->
  Permutation (join t c L (R1 ++ R2)) (join t c L R1 ++ join t c L R2).
Proof.
  intros Hs. unfold join. rewrite !safe_left_rows by assumption. cbn [app].
  rewrite right_rows_app. destruct (emits_pairs t); cbn [app]; [|reflexivity].
  rewrite pairs_app_r. rewrite <- !app_assoc. apply Permutation_app_head.
  rewrite !app_assoc. apply Permutation_app_tail, Permutation_app_comm.
Qed.

Lemma join_safe_nil t c L : is_left_broadcast_safe t = true -> join t c L [] = [].
Proof.
  intros Hs. unfold join. rewrite safe_left_rows by assumption.
  assert (pairs c L [] = []) as -> by (unfold pairs; cbn; apply flat_map_nil).
  destruct t; reflexivity.
Qed.

Lemma join_safe_split t c L Rs : is_left_broadcast_safe t = true ->
  Permutation (flat_map (join t c L) Rs) (join t c L (List.concat Rs)).
Proof.
  intros Hs. induction Rs as [|R Rs IH]; cbn.
  - now rewrite join_safe_nil.
  - rewrite IH. symmetry. now apply join_safe_app.
Qed.

Lemma cross_split c L Rs :
  Permutation (flat_map (cross c L) Rs) (cross c L (List.concat Rs)).
Proof.
  unfold cross. rewrite flat_map_swap. apply flat_map_perm_ext. intros l _.
  rewrite concat_map, flat_map_concat_map. reflexivity.
Qed.

(** ** Hash classes *)

Lemma flat_map_classes {B} (h : row -> nat) n (g : row -> list B) X : 0 < n ->
  Permutation (flat_map (fun p => flat_map g (class h n p X)) (seq 0 n)) (flat_map g X).
Proof.
  intros Hn. rewrite <- flat_map_flat_map. apply flat_map_perm_l.
  unfold class. apply (filter_classes_perm (fun r => h r mod n)). intros x _. apply Nat.mod_upper_bound. lia.
Qed.

Lemma in_class h n p (X : list row) r : In r (class h n p X) <-> In r X /\ h r mod n = p.
Proof. unfold class. rewrite filter_In, Nat.eqb_eq. reflexivity. Qed.

Definition keys_agree c (hl hr : row -> nat) L R : Prop :=
  forall l r, In l L -> In r R -> matches c l r = true -> hl l = hr r.

Section Classes.
Context (c : condition row) (hl hr : row -> nat) (L R : list row) (n : nat).
Hypothesis Hn : 0 < n.
Hypothesis Hk : keys_agree c hl hr L R.

Lemma existsb_class_r l p : In l (class hl n p L) ->
  existsb (matches c l) (class hr n p R) = existsb (matches c l) R.
Proof using Hk.
  intros Hl. apply in_class in Hl. destruct Hl as [Hl Hp].
  apply eq_true_iff_eq. rewrite !existsb_exists. split; intros (r & Hr & Hm); exists r.
  - apply in_class in Hr. tauto.
  - split; [|assumption]. apply in_class. split; [assumption|].
    rewrite <- (Hk l r) by assumption. exact Hp.
Qed.

Lemma existsb_class_l r p : In r (class hr n p R) ->
  existsb (fun l => matches c l r) (class hl n p L) = existsb (fun l => matches c l r) L.
Proof using Hk.
  intros Hl. apply in_class in Hl. destruct Hl as [Hl Hp].
  apply eq_true_iff_eq. rewrite !existsb_exists. split; intros (l & Hr & Hm); exists l.
  - apply in_class in Hr. tauto.
  - split; [|assumption]. apply in_class. split; [assumption|].
    rewrite (Hk l r) by assumption. exact Hp.
Qed.

Lemma flat_map_class_r {B} (g : row -> list B) l p : In l (class hl n p L) ->
  flat_map (fun r => if matches c l r then g r else []) (class hr n p R) =
  flat_map (fun r => if matches c l r then g r else []) R.
Proof using Hk.
  intros Hl. apply in_class in Hl. destruct Hl as [Hl Hp]. unfold class.
  assert (H : forall X, incl X R ->
    flat_map (fun r => if matches c l r then g r else []) (filter (fun r => hr r mod n =? p) X) =
    flat_map (fun r => if matches c l r then g r else []) X).
  { induction X as [|r X IH]; intros Hi; [reflexivity|]. cbn.
    assert (Hr : In r R) by (apply Hi; now left).
    assert (IH' := IH (fun x Hx => Hi x (or_intror Hx))).
    destruct (hr r mod n =? p) eqn:He; cbn; rewrite IH'; [reflexivity|].
    destruct (matches c l r) eqn:Hm; [|reflexivity].
    rewrite (Hk l r Hl Hr Hm) in Hp. apply Nat.eqb_neq in He. contradiction. }
  apply H, incl_refl.
Qed.

Lemma pairs_classes :
  Permutation (flat_map (fun p => pairs c (class hl n p L) (class hr n p R)) (seq 0 n)) (pairs c L R).
Proof using Hk Hn.
  unfold pairs. rewrite <- (flat_map_classes hl n _ L) by assumption.
  apply flat_map_perm_ext. intros p _. apply Permutation_refl'. apply flat_map_ext_in.
  intros l Hl. now apply flat_map_class_r.
Qed.

Lemma filter_as_flat_map {A} (f : A -> bool) X : filter f X = flat_map (fun x => if f x then [x] else []) X.
Proof. induction X as [|x X IH]; cbn; [reflexivity|]. destruct (f x); cbn; congruence. Qed.

Lemma left_rows_flat t (L' R' : list row) : exists g : row -> bool -> list row,
  left_rows t c L' R' = flat_map (fun l => g l (l_matched c R' l)) L' /\
  (forall (L'' R'' : list row), left_rows t c L'' R'' = flat_map (fun l => g l (l_matched c R'' l)) L'').
Proof.
  assert (H : exists g : row -> bool -> list row,
    forall (L'' R'' : list row), left_rows t c L'' R'' = flat_map (fun l => g l (l_matched c R'' l)) L'').
  { destruct t; cbn;
    try (exists (fun (_ : row) (_ : bool) => @nil row); intros; symmetry; apply flat_map_nil).
    - exists (fun (l : row) (b : bool) => if b then [] else [pair c (Some l) None]). intros.
      rewrite filter_as_flat_map, map_flat_map. apply flat_map_ext_in. intros l _. now destruct (l_matched c R'' l).
    - exists (fun (l : row) (b : bool) => if b then [] else [pair c (Some l) None]). intros.
      rewrite filter_as_flat_map, map_flat_map. apply flat_map_ext_in. intros l _. now destruct (l_matched c R'' l).
    - exists (fun (l : row) (b : bool) => if b then [l] else []). intros. apply filter_as_flat_map.
    - exists (fun (l : row) (b : bool) => if b then [] else [l]). intros. rewrite filter_as_flat_map.
      apply flat_map_ext_in. intros l _. now destruct (l_matched c R'' l).
    - exists (fun (l : row) (b : bool) => [mark c l b]). intros. now rewrite flat_map_single. }
  destruct H as [g H]. exists g. auto.
Qed.

Lemma right_rows_flat t : exists g : row -> bool -> list row,
  forall (L'' R'' : list row), right_rows t c L'' R'' = flat_map (fun r => g r (r_matched c L'' r)) R''.
Proof.
  destruct t; cbn;
  try (exists (fun (_ : row) (_ : bool) => @nil row); intros; symmetry; apply flat_map_nil).
  - exists (fun (l : row) (b : bool) => if b then [] else [pair c None (Some l)]). intros.
    rewrite filter_as_flat_map, map_flat_map. apply flat_map_ext_in. intros l _. now destruct (r_matched c L'' l).
  - exists (fun (l : row) (b : bool) => if b then [] else [pair c None (Some l)]). intros.
    rewrite filter_as_flat_map, map_flat_map. apply flat_map_ext_in. intros l _. now destruct (r_matched c L'' l).
  - exists (fun (l : row) (b : bool) => if b then [l] else []). intros. apply filter_as_flat_map.
  - exists (fun (l : row) (b : bool) => if b then [] else [l]). intros. rewrite filter_as_flat_map.
    apply flat_map_ext_in. intros l _. now destruct (r_matched c L'' l).
  - exists (fun (l : row) (b : bool) => [mark c l b]). intros. now rewrite flat_map_single.
Qed.

Lemma left_rows_classes t :
  Permutation (flat_map (fun p => left_rows t c (class hl n p L) (class hr n p R)) (seq 0 n)) (left_rows t c L R).
Proof using Hk Hn.
  destruct (left_rows_flat t L R) as (g & _ & H). rewrite H.
  rewrite <- (flat_map_classes hl n _ L) by assumption.
  apply flat_map_perm_ext. intros p _. apply Permutation_refl'. rewrite H. apply flat_map_ext_in.
  intros l Hl. unfold l_matched. now rewrite existsb_class_r.
Qed.

Lemma right_rows_classes t :
  Permutation (flat_map (fun p => right_rows t c (class hl n p L) (class hr n p R)) (seq 0 n)) (right_rows t c L R).
Proof using Hk Hn.
  destruct (right_rows_flat t) as (g & H). rewrite H.
  rewrite <- (flat_map_classes hr n _ R) by assumption.
  apply flat_map_perm_ext. intros p _. apply Permutation_refl'. rewrite H. apply flat_map_ext_in.
  intros r Hr. unfold r_matched. now rewrite existsb_class_l.
Qed.

Lemma join_classes t :
  Permutation (flat_map (fun p => join t c (class hl n p L) (class hr n p R)) (seq 0 n)) (join t c L R).
Proof using Hk Hn.
  unfold join. rewrite !flat_map_app_fun. rewrite left_rows_classes, right_rows_classes.
  apply Permutation_app_tail. destruct (emits_pairs t).
  - apply pairs_classes.
  - now rewrite flat_map_nil.
Qed.
End Classes.

(** ** Swapping the sides *)

Lemma pairs_flip c L R : Permutation (pairs (flip c) R L) (pairs c L R).
Proof. unfold pairs. rewrite flat_map_swap. reflexivity. Qed.

Lemma join_flip t c L R : Permutation (join (swap_type t) (flip c) R L) (join t c L R).
Proof.
  unfold join.
  assert (He : emits_pairs (swap_type t) = emits_pairs t) by (destruct t; reflexivity).
  assert (Hl : left_rows (swap_type t) (flip c) R L = right_rows t c L R) by (destruct t; reflexivity).
  assert (Hr : right_rows (swap_type t) (flip c) R L = left_rows t c L R) by (destruct t; reflexivity).
  rewrite He, Hl, Hr. apply Permutation_app; [|apply Permutation_app_comm].
  destruct (emits_pairs t); [apply pairs_flip|reflexivity].
Qed.

(** ** Permutations of the inputs *)

Lemma existsb_perm {A} (f : A -> bool) X Y : Permutation X Y -> existsb f X = existsb f Y.
Proof.
  intros H. apply eq_true_iff_eq. rewrite !existsb_exists.
  split; intros (x & Hx & Hf); exists x; split; try assumption;
    [eapply Permutation_in; [exact H|exact Hx]|eapply Permutation_in; [symmetry; exact H|exact Hx]].
Qed.

Lemma join_perm t c L L' R R' : Permutation L L' -> Permutation R R' ->
  Permutation (join t c L R) (join t c L' R').
Proof.
  intros HL HR. unfold join. apply Permutation_app; [|apply Permutation_app].
  - destruct (emits_pairs t); [|reflexivity]. unfold pairs.
    rewrite (flat_map_perm_l _ _ _ HL). apply flat_map_perm_ext. intros l _. now apply flat_map_perm_l.
  - destruct (left_rows_flat c t L R) as (g & _ & H). rewrite !H.
    rewrite (flat_map_perm_l _ _ _ HL). apply flat_map_perm_ext. intros l _.
    unfold l_matched. now rewrite (existsb_perm _ _ _ HR).
  - destruct (right_rows_flat c t) as (g & H). rewrite !H.
    rewrite (flat_map_perm_l _ _ _ HR). apply flat_map_perm_ext. intros r _.
    unfold r_matched. now rewrite (existsb_perm _ _ _ HL).
Qed.
End Join.

Lemma one_task_join_eq b j : one_task_join b j = single_task_join b j.
Proof. now destruct b, j as [[] [] []|[]|]. Qed.
