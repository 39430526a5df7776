(** Property theorems about joins: C16, C17, C18, C53. *)
From Verif Require Import Base JoinModel JoinSpec JoinProofs.

(** * C16 *)

(** C16. Every task gets the whole left side [L] and its own share of the right side; together the
    tasks return what one node returns. *)
Theorem C16_broadcast_join {row} t (c : condition row) L (shares : list (list row)) :
  is_left_broadcast_safe t = true ->
  Permutation (flat_map (fun share => join t c L share) shares) (join t c L (List.concat shares)).
Proof. exact (join_safe_split t c L shares). Qed.
Print Assumptions C16_broadcast_join.

(** Cross joins are always broadcast. *)
Theorem C16_broadcast_cross_join {row} (c : condition row) L (shares : list (list row)) :
  Permutation (flat_map (fun share => cross c L share) shares) (cross c L (List.concat shares)).
Proof. exact (cross_split c L shares). Qed.
Print Assumptions C16_broadcast_cross_join.

(** The join types of the English claim are those of the code. *)
Theorem C16_types t :
  is_left_broadcast_safe t = true <-> In t [Inner; Right; RightSemi; RightAnti; RightMark].
Proof. split; [destruct t; cbn; intros H; try discriminate; tauto|]. cbn. intuition (subst; reflexivity). Qed.
Print Assumptions C16_types.

(** Only joins of those types (or cross joins), in their collecting mode, get a broadcast build side. *)
Theorem C16_only_safe_joins_broadcast j : can_broadcast_left_input j = true <->
  j = Cross \/ (exists t, j = NestedLoop t /\ is_left_broadcast_safe t = true) \/
  (exists n t, j = HashJoin true n t /\ is_left_broadcast_safe t = true).
Proof.
  split.
  - destruct j as [cl n t|t|]; cbn; intros H; [|right; left; eauto|now left].
    apply andb_prop in H. destruct H as [-> H]. right. right. eauto.
  - intros [-> | [(t & -> & H) | (n & t & -> & H)]]; cbn; auto.
Qed.
Print Assumptions C16_only_safe_joins_broadcast.

(** A concrete case: two tasks, a row pair and an unmatched right row. *)
Definition demo : condition (nat * nat) :=
  mkCond (fun l r => fst l =? fst r)
    (fun l r => (match l with Some l => 1 + snd l | None => 0 end, match r with Some r => 1 + snd r | None => 0 end))
    (fun r b => (fst r, if b then 1 else 0)).

Example C16_example :
  join Right demo [(1, 10); (2, 20)] ([(1, 5)] ++ [(3, 7)]) = [(11, 6); (0, 8)] /\
  flat_map (join Right demo [(1, 10); (2, 20)]) [[(1, 5)]; [(3, 7)]] = [(11, 6); (0, 8)].
Proof. split; reflexivity. Qed.

(** * C17 *)

(** C17. For the other types there are a condition, a left table and two shares on which broadcasting
    gives a different bag. *)
Theorem C17_unsafe_types t : is_left_broadcast_safe t = false ->
  exists (c : condition nat) L R1 R2,
    ~ Permutation (flat_map (join t c L) [R1; R2]) (join t c L (R1 ++ R2)).
Proof.
  intros H.
  set (c := mkCond Nat.eqb (fun l r => 0) (fun r b => 0)).
  assert (Hd : forall A (X Y : list A), List.length X <> List.length Y -> ~ Permutation X Y)
    by (intros A X Y Hl HP; apply Hl, Permutation_length, HP).
  exists c, [1]. destruct t; cbn in H; try discriminate.
  - exists [1], []. apply Hd. cbn. discriminate.
  - exists [1], []. apply Hd. cbn. discriminate.
  - exists [1], [1]. apply Hd. cbn. discriminate.
  - exists [1], []. apply Hd. cbn. discriminate.
  - exists [1], [1]. apply Hd. cbn. discriminate.
Qed.
Print Assumptions C17_unsafe_types.

(** ... so the types admitted to broadcasting are exactly the safe ones. *)
Theorem C17_exactly_the_safe_types t :
  is_left_broadcast_safe t = true <->
  (forall (c : condition nat) L R1 R2,
     Permutation (flat_map (join t c L) [R1; R2]) (join t c L (R1 ++ R2))).
Proof.
  split.
  - intros H c L R1 R2. pose proof (join_safe_split t c L [R1; R2] H) as HP.
    cbn [List.concat] in HP. rewrite app_nil_r in HP. exact HP.
  - intros H. destruct (is_left_broadcast_safe t) eqn:E; [reflexivity|].
    destruct (C17_unsafe_types t E) as (c & L & R1 & R2 & Hn). exfalso. apply Hn, H.
Qed.
Print Assumptions C17_exactly_the_safe_types.

(** No type can do without the broadcast: with the left side spread over the tasks like the right side,
    rows go missing (or appear) for every join type. Hence the single-task rule of C15. *)
Theorem C17_slices_are_wrong t :
  exists (c : condition nat) L1 L2 R1 R2,
    ~ Permutation (join t c L1 R1 ++ join t c L2 R2) (join t c (L1 ++ L2) (R1 ++ R2)).
Proof.
  set (c := mkCond Nat.eqb (fun l r => match l, r with Some _, Some _ => 1 | _, _ => 0 end) (fun r b => if b then 1 else 0)).
  exists c, [1], [], [], [1]. intros HP.
  assert (Hd : forall X Y : list nat, Permutation X Y -> list_sum X = list_sum Y /\ List.length X = List.length Y)
    by (intros X Y H; split; [|now apply Permutation_length];
        induction H; try reflexivity; [apply (f_equal (Nat.add x)); assumption| |etransitivity; eassumption];
        change (y + (x + list_sum l) = x + (y + list_sum l)); lia).
  apply Hd in HP. destruct t; cbn in HP; destruct HP; discriminate.
Qed.
Print Assumptions C17_slices_are_wrong.

(** Null-aware anti joins can neither be broadcast nor partitioned: whether the right side is empty or
    holds a null is a fact about the whole right side. *)
Theorem C17_null_aware :
  exists (lkey rkey : nat -> option nat) L R1 R2,
    ~ Permutation (flat_map (null_aware_anti lkey rkey L) [R1; R2]) (null_aware_anti lkey rkey L (R1 ++ R2)) /\
    exists hl hr, (forall l r, lkey l <> None -> lkey l = rkey r -> hl l = hr r) /\
      ~ Permutation (flat_map (fun p => null_aware_anti lkey rkey (class hl 2 p L) (class hr 2 p (R1 ++ R2))) (seq 0 2))
                    (null_aware_anti lkey rkey L (R1 ++ R2)).
Proof.
  set (k := fun n : nat => if n =? 0 then None else Some n).
  exists k, k, [1], [0], [2]. split.
  - intros HP. apply Permutation_length in HP. vm_compute in HP. discriminate.
  - exists (fun n => n), (fun n => n). split.
    + intros l r Hn He. unfold k in *. destruct (l =? 0) eqn:E1; [congruence|].
      destruct (r =? 0) eqn:E2; congruence.
    + intros HP. apply Permutation_length in HP. vm_compute in HP. discriminate.
Qed.
Print Assumptions C17_null_aware.

(** * C18 *)

(** C18. Both sides split by hash of the join key into [n] classes, joined class by class. *)
Theorem C18_partitioned_join {row} t (c : condition row) (hl hr : row -> nat) n L R :
  0 < n ->
  (forall l r, In l L -> In r R -> matches c l r = true -> hl l = hr r) ->
  Permutation (flat_map (fun p => join t c (class hl n p L) (class hr n p R)) (seq 0 n)) (join t c L R).
Proof. intros Hn Hk. exact (join_classes c hl hr L R n Hn Hk t). Qed.
Print Assumptions C18_partitioned_join.

(** The condition is needed: if matching rows may hash differently, pairs are lost. *)
Theorem C18_needs_equal_hashes :
  exists t (c : condition nat) hl hr n L R, 0 < n /\
    ~ Permutation (flat_map (fun p => join t c (class hl n p L) (class hr n p R)) (seq 0 n)) (join t c L R).
Proof.
  exists Inner, (mkCond (fun _ _ => true) (fun _ _ => 0) (fun _ _ => 0)), (fun r => r), (fun r => r), 2, [1], [2].
  split; [lia|]. intros HP. apply Permutation_length in HP. discriminate.
Qed.
Print Assumptions C18_needs_equal_hashes.

(** Exactly which joins are rewritten. *)
Theorem C18_which_joins j single :
  becomes_partitioned j single = true <->
  single = false /\ exists t, j = HashJoin true false t /\ is_left_broadcast_safe t = false.
Proof.
  split.
  - destruct j as [cl n t|t|]; cbn; try discriminate. intros H.
    destruct cl, (is_left_broadcast_safe t) eqn:E, n, single; try discriminate. eauto.
  - intros (-> & t & -> & H). cbn. now rewrite H.
Qed.
Print Assumptions C18_which_joins.

Example C18_example :
  join Full demo [(1, 10); (2, 20)] [(1, 5); (4, 7)] = [(11, 6); (21, 0); (0, 8)] /\
  flat_map (fun p => join Full demo (class fst 2 p [(1, 10); (2, 20)]) (class fst 2 p [(1, 5); (4, 7)])) (seq 0 2)
    = [(21, 0); (0, 8); (11, 6)].
Proof. split; reflexivity. Qed.

(** * C53 *)

(** C53. Exchanging the two inputs of a nested loop join, with the join type exchanged, the condition
    reading its arguments in the other order and the columns put back in order, preserves the result. *)
Theorem C53_swapped_join {row} t (c : condition row) L R :
  Permutation (join (swap_type t) (flip c) R L) (join t c L R).
Proof. exact (join_flip t c L R). Qed.
Print Assumptions C53_swapped_join.

(** Every join that gets swapped becomes one that can be broadcast. *)
Theorem C53_swapped_is_broadcastable b t single :
  gets_swapped b (NestedLoop t) single = true ->
  can_broadcast_left_input (NestedLoop (swap_type t)) = true /\ single_task_join b (NestedLoop (swap_type t)) = false.
Proof. destruct t, b, single; cbn; auto; discriminate. Qed.
Print Assumptions C53_swapped_is_broadcastable.

(** A join is broadcast, runs in one task, or is partitioned: nothing else may run in several tasks. *)
Theorem C53_every_join_is_covered b j : 
  single_task_join b j = true \/ (b = true /\ can_broadcast_left_input j = true) \/
  (exists n t, j = HashJoin false n t).
Proof.
  destruct j as [cl n t|t|]; [destruct cl; [|eauto]| |]; destruct b; cbn; auto.
  - destruct n; cbn; auto. destruct (is_left_broadcast_safe t); cbn; auto.
  - destruct (is_left_broadcast_safe t); cbn; auto. left. now rewrite orb_true_r.
Qed.
Print Assumptions C53_every_join_is_covered.

Example C53_example :
  join Left demo [(1, 10); (2, 20)] [(1, 5)] = [(11, 6); (21, 0)] /\
  join Right (flip demo) [(1, 5)] [(1, 10); (2, 20)] = [(11, 6); (21, 0)].
Proof. split; reflexivity. Qed.
