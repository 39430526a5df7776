(** Invariants of the merged stream. *)
From Verif Require Import Base CiuModel CiuProofs PoolProofs MuxModel MuxSpec.

Local Arguments list_sum : simpl never.
Local Arguments bytes_waiting : simpl never.

Section Proofs.
Context {data err : Type}.
Notation item := (msg data + err)%type.
Variables (q : nat) (inputs : list (list item)).

Definition held_list (s : source data err) : list item := match s_held s with Some m => [m] | None => [] end.

Record mux_ok (x : mux data err) : Prop := {
  ok_len : List.length (x_sources x) = List.length inputs;
  ok_all : forall i s, nth_error (x_sources x) i = Some s ->
    nth_error inputs i = Some (s_out s ++ s_queue s ++ held_list s ++ s_src s);
  ok_ended : forall i s, nth_error (x_sources x) i = Some s -> x_dropped x = false -> s_ended s = true ->
    s_held s = None /\ (s_crashed s = false -> s_src s = []);
  ok_queue : forall i s, nth_error (x_sources x) i = Some s -> List.length (s_queue s) <= q;
  ok_reserved : x_freed x = false -> x_reserved x = bytes_waiting x;
  ok_panic : x_panicked x = false;
  ok_freed : x_freed x = true -> x_dropped x = true /\ x_reserved x = 0;
  ok_read : interleaved (map s_out (x_sources x)) (x_read x)
}.

Lemma sum_upd {A} (f : A -> nat) l i v w : nth_error l i = Some w ->
  list_sum (map f (upd l i v)) + f w = list_sum (map f l) + f v.
Proof.
  revert i. induction l as [|a l IH]; intros [|i]; cbn; try discriminate.
  - intros E. injection E as ->. change (f v + list_sum (map f l) + f w = f w + list_sum (map f l) + f v). lia.
  - intros E. specialize (IH _ E). change (f a + list_sum (map f (upd l i v)) + f w = f a + list_sum (map f l) + f v). lia.
Qed.

Lemma upd_same_map {A B} (f : A -> B) l i v w : nth_error l i = Some w -> f v = f w -> map f (upd l i v) = map f l.
Proof.
  revert i. induction l as [|a l IH]; intros [|i]; cbn; try discriminate.
  - intros E Hf. injection E as ->. now rewrite Hf.
  - intros E Hf. now rewrite (IH _ E Hf).
Qed.

Lemma upd_map {A B} (f : A -> B) l i v : map f (upd l i v) = upd (map f l) i (f v).
Proof. revert i. induction l as [|a l IH]; intros [|i]; cbn; [reflexivity..|]. now rewrite IH. Qed.

Lemma bytes_app l l' : @bytes_of data err (l ++ l') = bytes_of l + bytes_of l'.
Proof. unfold bytes_of. rewrite map_app. apply list_sum_app. Qed.
Lemma bytes_one m : @bytes_of data err [m] = size_of m.
Proof. unfold bytes_of, list_sum. cbn. lia. Qed.

Ltac src_cases H := apply upd_nth_cases in H; destruct H as [[<- ->]|[? H]].

Lemma mux_ok_new : mux_ok (mux_new inputs).
Proof.
  assert (Hn : forall i s, nth_error (x_sources (@mux_new data err inputs)) i = Some s ->
    exists l, nth_error inputs i = Some l /\ s = mkSource l None [] false false []).
  { unfold mux_new. cbn. intros i s H. rewrite nth_error_map in H. destruct (nth_error inputs i) as [l|]; [|discriminate]. cbn in H. injection H as <-. eauto. }
  constructor; cbn; try discriminate; try reflexivity.
  - apply map_length.
  - intros i s H. destruct (Hn _ _ H) as (l & Hl & ->). exact Hl.
  - intros i s H _. destruct (Hn _ _ H) as (l & Hl & ->). discriminate.
  - intros i s H. destruct (Hn _ _ H) as (l & Hl & ->). cbn. lia.
  - intros _. unfold bytes_waiting, mux_new. cbn [x_sources]. rewrite map_map. clear. induction inputs as [|l ls IH]; [reflexivity|]. cbn. exact IH.
  - constructor. rewrite map_map. cbn. apply Forall_map, Forall_forall. reflexivity.
Qed.

Lemma mux_ok_step x x' : mux_ok x -> mux_step q x x' -> mux_ok x'.
Proof.
  intros [H1 H2 H3 H4 H5 H6 H7 H8] Hs.
  destruct Hs as [x i s m rest Hi He Hh Hsrc Hd|x i s m Hi He Hh Hq Hd|x i s Hi He Hh Hsrc Hd|x i s Hi He Hh Hd|x i s m rest Hi Hqu Hd Hp|x Hd|x i s Hi He Hd|x Hd Ha Hf].
  - constructor; cbn; try assumption.
    + now rewrite upd_length.
    + intros j t Hj. src_cases Hj; [|eauto]. cbn. unfold held_list. cbn. specialize (H2 _ _ Hi). unfold held_list in H2. rewrite Hh, Hsrc in H2. exact H2.
    + intros j t Hj _ Ht. src_cases Hj; [discriminate|eauto].
    + intros j t Hj. src_cases Hj; [cbn; eauto|eauto].
    + intros Hf. rewrite (H5 Hf). unfold bytes_waiting, with_source. cbn [x_sources].
      pose proof (sum_upd (fun s => bytes_of (waiting s)) _ _ (mkSource rest (Some m) (s_queue s) false false (s_out s)) _ Hi) as E.
      cbn beta in E. unfold waiting in E at 2 4. rewrite Hh in E. cbn [s_queue s_held] in E. rewrite !bytes_app, bytes_one in E.
      change (@bytes_of data err []) with 0 in E. lia.
    + intros Hf. destruct (H7 Hf). congruence.
    + rewrite (upd_same_map _ _ _ _ _ Hi); [exact H8|reflexivity].
  - constructor; cbn; try assumption.
    + now rewrite upd_length.
    + intros j t Hj. src_cases Hj; [|eauto]. cbn. unfold held_list. cbn. specialize (H2 _ _ Hi). unfold held_list in H2. rewrite Hh in H2.
      rewrite <- app_assoc. exact H2.
    + intros j t Hj _ Ht. src_cases Hj; [discriminate|eauto].
    + intros j t Hj. src_cases Hj; [cbn; rewrite app_length; cbn; lia|eauto].
    + intros Hf. rewrite (H5 Hf). unfold bytes_waiting, with_source. cbn [x_sources].
      pose proof (sum_upd (fun s => bytes_of (waiting s)) _ _ (mkSource (s_src s) None (s_queue s ++ [m]) false false (s_out s)) _ Hi) as E.
      cbn beta in E. unfold waiting in E at 2 4. rewrite Hh in E. cbn [s_queue s_held] in E. rewrite app_nil_r in E. lia.
    + rewrite (upd_same_map _ _ _ _ _ Hi); [exact H8|reflexivity].
  - constructor; cbn; try assumption.
    + now rewrite upd_length.
    + intros j t Hj. src_cases Hj; [|eauto]. cbn. unfold held_list. cbn. specialize (H2 _ _ Hi). unfold held_list in H2. rewrite Hh, Hsrc in H2. exact H2.
    + intros j t Hj _ Ht. src_cases Hj; [cbn; auto|eauto].
    + intros j t Hj. src_cases Hj; [cbn; eauto|eauto].
    + intros Hf. rewrite (H5 Hf). unfold bytes_waiting, with_source. cbn [x_sources]. f_equal. symmetry. apply (upd_same_map _ _ _ _ _ Hi). unfold waiting. cbn. now rewrite Hh.
    + rewrite (upd_same_map _ _ _ _ _ Hi); [exact H8|reflexivity].
  - constructor; cbn; try assumption.
    + now rewrite upd_length.
    + intros j t Hj. src_cases Hj; [|eauto]. cbn. unfold held_list. cbn. specialize (H2 _ _ Hi). unfold held_list in H2. rewrite Hh in H2. exact H2.
    + intros j t Hj _ Ht. src_cases Hj; [cbn; split; [reflexivity|discriminate]|eauto].
    + intros j t Hj. src_cases Hj; [cbn; eauto|eauto].
    + intros Hf. rewrite (H5 Hf). unfold bytes_waiting, with_source. cbn [x_sources]. f_equal. symmetry. apply (upd_same_map _ _ _ _ _ Hi). unfold waiting. cbn. now rewrite Hh.
    + rewrite (upd_same_map _ _ _ _ _ Hi); [exact H8|reflexivity].
  - assert (Hf : x_freed x = false) by (destruct (x_freed x); [destruct (H7 eq_refl); congruence|reflexivity]).
    pose proof (sum_upd (fun s => bytes_of (waiting s)) _ _ (mkSource (s_src s) (s_held s) rest (s_ended s) (s_crashed s) (s_out s ++ [m])) _ Hi) as E.
    cbn beta in E. unfold waiting in E at 2 4. rewrite Hqu in E. cbn [s_queue s_held] in E. rewrite <- app_comm_cons in E.
    change (m :: rest ++ match s_held s with Some m => [m] | None => [] end) with ([m] ++ rest ++ match s_held s with Some m => [m] | None => [] end) in E.
    rewrite (bytes_app [m]), bytes_one in E. pose proof (H5 Hf) as E5. unfold bytes_waiting in E5.
    constructor; cbn; try assumption.
    + now rewrite upd_length.
    + intros j t Hj. src_cases Hj; [|eauto]. cbn. unfold held_list. cbn. specialize (H2 _ _ Hi). unfold held_list in H2. rewrite Hqu in H2.
      rewrite <- app_assoc. exact H2.
    + intros j t Hj Hd' Ht. src_cases Hj; [cbn in *; eauto|eauto].
    + intros j t Hj. src_cases Hj; [cbn; specialize (H4 _ _ Hi); rewrite Hqu in H4; cbn in H4; lia|eauto].
    + intros _. unfold bytes_waiting, with_source. cbn [x_sources]. lia.
    + apply Nat.ltb_ge. lia.
    + intros Hx. congruence.
    + rewrite upd_map. cbn. apply il_snoc; [|exact H8]. rewrite nth_error_map, Hi. reflexivity.
  - constructor; cbn; try assumption; try discriminate.
    intros Hf. destruct (H7 Hf). congruence.
  - constructor; cbn; try assumption.
    + now rewrite upd_length.
    + intros j t Hj. src_cases Hj; [cbn|]; eauto. exact (H2 _ _ Hi).
    + intros j t Hj Hd' Ht. congruence.
    + intros j t Hj. src_cases Hj; [cbn; eauto|eauto].
    + intros Hf. rewrite (H5 Hf). unfold bytes_waiting, with_source. cbn [x_sources]. f_equal. symmetry. apply (upd_same_map _ _ _ _ _ Hi). reflexivity.
    + rewrite (upd_same_map _ _ _ _ _ Hi); [exact H8|reflexivity].
  - constructor; cbn; try assumption; try discriminate; auto.
Qed.

Lemma mux_ok_reachable x : mux_reachable q inputs x -> mux_ok x.
Proof. apply steps_invariant; [exact mux_ok_new|exact mux_ok_step]. Qed.

Lemma running_not_crashed x : mux_reachable q inputs x ->
  forall i s, nth_error (x_sources x) i = Some s -> s_ended s = false -> s_crashed s = false.
Proof using.
  intros H. apply (steps_invariant (mux_step q) (fun x => forall i s, nth_error (x_sources x) i = Some s -> s_ended s = false -> s_crashed s = false) (mux_new inputs) x); [| |exact H].
  - cbn. intros i s. rewrite nth_error_map. destruct (nth_error inputs i); [|discriminate]. cbn. intros E. injection E as <-. reflexivity.
  - clear x H. intros a b IH Hs j t Hj He.
    destruct Hs; cbn in Hj; try (src_cases Hj; cbn in *; try congruence); eauto.
Qed.
End Proofs.
