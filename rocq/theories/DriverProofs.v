(** Proofs about the walk over the streamed side. *)
From Verif Require Import Base CiuModel SamplerModel GatherModel DriverModel DriverSpec.
From Coq Require Import NArith Lia.

Section Ind.
Variable P : dplan -> Prop.
Hypothesis Hj : forall id l r, P r -> P (DJoin id l r).
Hypothesis Ho : forall id cs, Forall P cs -> P (DOther id cs).
Fixpoint dplan_ind' (p : dplan) : P p :=
  match p with
  | DJoin id l r => Hj id l r (dplan_ind' r)
  | DOther id cs => Ho id cs ((fix go cs := match cs return Forall P cs with [] => Forall_nil P | c :: cs => Forall_cons c (dplan_ind' c) (go cs) end) cs)
  end.
End Ind.

(** The streamed leaves. *)
Definition number {A} (l : list A) : list (nat * A) := combine (seq 0 (List.length l)) l.
Fixpoint leaves (p : dplan) : list (list nat * nat) :=
  match p with
  | DJoin _ _ r => map (fun '(a, id) => (1 :: a, id)) (leaves r)
  | DOther id cs =>
      match cs with
      | [] => [([], id)]
      | _ => flat_map (fun '(i, ls) => map (fun '(a, id) => (i :: a, id)) ls) (number (map leaves cs))
      end
  end.

Lemma in_number {A} (l : list A) i x : In (i, x) (number l) <-> nth_error l i = Some x.
Proof.
  unfold number. assert (G : forall s, In (i, x) (combine (seq s (List.length l)) l) <-> s <= i /\ nth_error l (i - s) = Some x).
  { induction l as [|y l IH]; intros s; cbn.
    - split; [tauto|]. intros [_ H]. now destruct (i - s).
    - rewrite IH. split.
      + intros [[= -> ->]|[H1 H2]]; [rewrite Nat.sub_diag; auto|]. split; [lia|]. replace (i - s) with (S (i - S s)) by lia. exact H2.
      + intros [H1 H2]. destruct (Nat.eq_dec i s) as [->|N]; [rewrite Nat.sub_diag in H2; injection H2 as ->; now left|].
        right. split; [lia|]. replace (i - s) with (S (i - S s)) in H2 by lia. exact H2. }
  rewrite G, Nat.sub_0_r. split; [tauto|]. split; [lia|assumption].
Qed.

Lemma leaves_streams p at_ id : In (at_, id) (leaves p) <-> streams p at_ id.
Proof.
  revert at_ id. induction p as [j l r IH|o cs IH] using dplan_ind'; intros at_ id; cbn [leaves].
  - rewrite in_map_iff. split.
    + intros ([a x] & [= <- <-] & H). constructor. now apply IH.
    + intros H. inversion H; subst. eexists (_, _). split; [reflexivity|]. now apply IH.
  - destruct cs as [|c0 cs0]; [cbn; split; [intros [[= <- <-]|[]]; constructor|intros H; inversion H as [| |? ? i ? ? ? E]; subst; [now left|now destruct i]]|].
    remember (c0 :: cs0) as cs eqn:Ecs. rewrite in_flat_map. split.
    + intros ([i ls] & Hi & H). apply in_number in Hi. apply in_map_iff in H. destruct H as ([a x] & [= <- <-] & H).
      rewrite nth_error_map in Hi. destruct (nth_error cs i) as [c|] eqn:E; [|discriminate]. injection Hi as <-.
      econstructor; [exact E|]. rewrite Forall_forall in IH. apply IH; [eapply nth_error_In; eauto|assumption].
    + intros H. inversion H as [| |? ? i c a ? E Hc]; subst; [discriminate|].
      exists (i, leaves c). split; [apply in_number; rewrite nth_error_map, E; reflexivity|]. apply in_map_iff. exists (a, id). split; [reflexivity|].
      rewrite Forall_forall in IH. apply IH; [eapply nth_error_In; eauto|assumption].
Qed.

Definition ordered_list (l : list (list nat)) : Prop :=
  forall i j a b, i < j -> nth_error l i = Some a -> nth_error l j = Some b -> earlier_leaf a b.

Lemma ordered_cons x l : ordered_list l -> (forall b, In b l -> earlier_leaf x b) -> ordered_list (x :: l).
Proof.
  intros Ho Hx [|i] [|j] a b Hij Ha Hb; try lia; cbn in *.
  - injection Ha as <-. apply Hx. eapply nth_error_In; eauto.
  - apply (Ho i j); [lia|assumption|assumption].
Qed.
Lemma ordered_app l l' : ordered_list l -> ordered_list l' -> (forall a b, In a l -> In b l' -> earlier_leaf a b) -> ordered_list (l ++ l').
Proof.
  intros H H' Hc i j a b Hij Ha Hb.
  destruct (Nat.lt_ge_cases i (List.length l)) as [Li|Li], (Nat.lt_ge_cases j (List.length l)) as [Lj|Lj]; try lia.
  - rewrite nth_error_app1 in Ha, Hb by assumption. eauto.
  - rewrite nth_error_app1 in Ha by assumption. rewrite nth_error_app2 in Hb by assumption.
    apply Hc; eapply nth_error_In; eauto.
  - rewrite nth_error_app2 in Ha, Hb by assumption. eapply (H' (i - List.length l)); [|eassumption|eassumption]. lia.
Qed.
Lemma ordered_map i l : ordered_list l -> ordered_list (map (cons i) l).
Proof.
  intros H x y a b Hxy Ha Hb. rewrite nth_error_map in Ha, Hb.
  destruct (nth_error l x) as [a'|] eqn:Ea, (nth_error l y) as [b'|] eqn:Eb; try discriminate. injection Ha as <-. injection Hb as <-.
  destruct (H x y a' b' Hxy Ea Eb) as (pre & u & v & ra & rb & -> & -> & L). exists (i :: pre), u, v, ra, rb. auto.
Qed.

Lemma leaves_ordered p : ordered_list (map fst (leaves p)).
Proof.
  assert (M : forall i ls, map fst (map (fun '(a, id) => (i :: a, id)) (ls : list (list nat * nat))) = map (cons i) (map fst ls)).
  { intros i ls. rewrite !map_map. apply map_ext. now intros []. }
  induction p as [j l r IH|o cs IH] using dplan_ind'; cbn [leaves].
  - rewrite M. now apply ordered_map.
  - destruct cs as [|c0 cs0]; [intros [|i] [|j] a b Hij; cbn; try lia; destruct j; discriminate|].
    remember (c0 :: cs0) as cs eqn:Ecs. clear c0 cs0 Ecs. unfold number.
    assert (G : forall s, ordered_list (map fst (flat_map (fun '(i, ls) => map (fun '(a, id) => (i :: a, id)) ls)
        (combine (seq s (List.length (map leaves cs))) (map leaves cs)))) /\
      forall b, In b (map fst (flat_map (fun '(i, ls) => map (fun '(a, id) => (i :: a, id)) ls)
        (combine (seq s (List.length (map leaves cs))) (map leaves cs)))) -> exists i rb, b = i :: rb /\ s <= i).
    { induction IH as [|c cs Hc _ IHc]; intros s; cbn [map List.length seq combine flat_map]; [split; [intros [|i] j a b _; discriminate|intros b []]|].
      destruct (IHc (S s)) as [I1 I2]. rewrite map_app, M. split.
      - apply ordered_app; [now apply ordered_map|exact I1|]. intros a b Ha Hb. apply in_map_iff in Ha. destruct Ha as (a' & <- & _).
        destruct (I2 b Hb) as (i & rb & -> & L). exists [], s, i, a', rb. repeat split; lia.
      - intros b Hb. apply in_app_iff in Hb. destruct Hb as [Hb|Hb].
        + apply in_map_iff in Hb. destruct Hb as (a & <- & _). eauto.
        + destruct (I2 b Hb) as (i & rb & -> & L). exists i, rb. split; [reflexivity|lia]. }
    apply G.
Qed.

Lemma leaves_listed p : lists p (leaves p).
Proof. split; [intros; apply leaves_streams|apply leaves_ordered]. Qed.

(** The order makes the list unique. *)
Lemma earlier_irrefl a : ~ earlier_leaf a a.
Proof. intros (pre & i & j & ra & rb & E & E' & L). rewrite E in E'. apply app_inv_head in E'. injection E' as -> _. lia. Qed.
Lemma earlier_asym a b : earlier_leaf a b -> earlier_leaf b a -> False.
Proof.
  intros (pre & i & j & ra & rb & Ea & Eb & L) (pre' & i' & j' & rb' & ra' & Eb' & Ea' & L'). subst a b.
  revert pre' Ea' Eb'. induction pre as [|x pre IH]; intros [|y pre'] Ea' Eb'; cbn in *.
  - injection Ea' as ? _. injection Eb' as ? _. lia.
  - injection Ea' as -> _. injection Eb' as -> _. lia.
  - injection Ea' as -> _. injection Eb' as ? _. lia.
  - injection Ea' as _ Ea'. injection Eb' as _ Eb'. eauto.
Qed.

Lemma streams_functional p at_ id id' : streams p at_ id -> streams p at_ id' -> id = id'.
Proof.
  intros H. revert id'. induction H as [id|j l r a id H IH|o cs i c a id E H IH]; intros id' H'; inversion H' as [|? ? ? ? ? H2|? ? ? ? ? ? E2 H2]; subst; auto.
  rewrite E in E2. injection E2 as <-. auto.
Qed.

Lemma sorted_unique (l l' : list (list nat)) : ordered_list l -> ordered_list l' -> (forall x, In x l <-> In x l') -> l = l'.
Proof.
  revert l'. induction l as [|x l IH]; intros [|y l'] H H' E.
  - reflexivity.
  - destruct (proj2 (E y) (or_introl eq_refl)).
  - destruct (proj1 (E x) (or_introl eq_refl)).
  - assert (Hx : forall b, In b l -> earlier_leaf x b).
    { intros b Hb. apply In_nth_error in Hb. destruct Hb as (n & Hn). apply (H 0 (S n)); [lia|reflexivity|exact Hn]. }
    assert (Hy : forall b, In b l' -> earlier_leaf y b).
    { intros b Hb. apply In_nth_error in Hb. destruct Hb as (n & Hn). apply (H' 0 (S n)); [lia|reflexivity|exact Hn]. }
    assert (x = y) as <-.
    { destruct (proj1 (E x) (or_introl eq_refl)) as [->|Hin]; [reflexivity|].
      destruct (proj2 (E y) (or_introl eq_refl)) as [->|Hin2]; [reflexivity|].
      destruct (earlier_asym x y); auto. }
    f_equal. apply IH.
    + intros i j a b Hij Ha Hb. apply (H (S i) (S j)); [lia|exact Ha|exact Hb].
    + intros i j a b Hij Ha Hb. apply (H' (S i) (S j)); [lia|exact Ha|exact Hb].
    + intros z. split; intros Hz.
      * destruct (proj1 (E z) (or_intror Hz)) as [<-|]; [|assumption]. destruct (earlier_irrefl x). auto.
      * destruct (proj2 (E z) (or_intror Hz)) as [<-|]; [|assumption]. destruct (earlier_irrefl x). auto.
Qed.

Lemma lists_unique p l : lists p l -> l = leaves p.
Proof.
  intros [H Ho]. pose proof (leaves_listed p) as [H2 Ho2].
  assert (E : map fst l = map fst (leaves p)).
  { apply sorted_unique; [exact Ho|exact Ho2|]. intros x. rewrite !in_map_iff.
    split; intros ([a id] & <- & Hi); exists (a, id); (split; [reflexivity|]); [apply H2, H, Hi|apply H, H2, Hi]. }
  assert (K : forall l', (forall at_ id, In (at_, id) l -> streams p at_ id) -> (forall at_ id, In (at_, id) l' -> streams p at_ id) -> map fst l = map fst l' -> l = l').
  { clear. induction l as [|[a x] l IH]; intros [|[b y] l'] H H' E; try discriminate; [reflexivity|]. cbn in E. injection E as -> E.
    rewrite (streams_functional p b x y (H b x (or_introl eq_refl)) (H' b y (or_introl eq_refl))). f_equal. apply IH; [intros; apply H; now right|intros; apply H'; now right|exact E]. }
  apply K; [intros; now apply H|intros; now apply H2|exact E].
Qed.

(** The walk is a walk over the streamed leaves, if the visitor only looks at leaves. *)
Section Fold.
Context {S : Type}.
Variable g : S -> nat -> S * bool.
Definition visitor (s : S) (n : dplan) : S * bool := match is_leaf n with Some id => g s id | None => (s, true) end.
Fixpoint over (l : list nat) (s : S) : S * bool :=
  match l with [] => (s, true) | id :: l => let '(s, fine) := g s id in if fine then over l s else (s, false) end.

Lemma over_app l l' s : over (l ++ l') s = let '(s, fine) := over l s in if fine then over l' s else (s, false).
Proof. revert s. induction l as [|x l IH]; intros s; cbn; [reflexivity|]. destruct (g s x) as [s1 [|]]; [apply IH|reflexivity]. Qed.

Fixpoint visit_all (cs : list dplan) (s : S) : S * bool :=
  match cs with
  | [] => (s, true)
  | c :: cs => let '(s, fine) := apply_driver_path visitor c s in if fine then visit_all cs s else (s, false)
  end.
Lemma visit_other o c cs s : apply_driver_path visitor (DOther o (c :: cs)) s = visit_all (c :: cs) s.
Proof. cbn. destruct (apply_driver_path visitor c s) as [s1 [|]]; [|reflexivity]. revert s1. induction cs as [|d cs IH]; intros s1; cbn; [reflexivity|].
  destruct (apply_driver_path visitor d s1) as [s2 [|]]; [apply IH|reflexivity]. Qed.

Lemma walk_leaves p s : apply_driver_path visitor p s = over (map snd (leaves p)) s.
Proof.
  assert (M : forall i ls, map snd (map (fun '(a, id) => (i :: a, id)) (ls : list (list nat * nat))) = map snd ls).
  { intros i ls. rewrite map_map. apply map_ext. now intros []. }
  revert s. induction p as [j l r IH|o cs IH] using dplan_ind'; intros s.
  - cbn. rewrite M. apply IH.
  - destruct cs as [|c0 cs0].
    + cbn. destruct (g s o) as [s1 [|]]; reflexivity.
    + rewrite visit_other. cbn [leaves]. change (leaves c0 :: map leaves cs0) with (map leaves (c0 :: cs0)).
      remember (c0 :: cs0) as cs eqn:Ecs. clear c0 cs0 Ecs. unfold number. generalize 0 as k. revert s.
      induction IH as [|c cs Hc _ IHc]; intros s k; cbn [map List.length seq combine flat_map visit_all]; [reflexivity|].
      rewrite map_app, M, over_app, Hc. destruct (over (map snd (leaves c)) s) as [s1 [|]]; [apply IHc|reflexivity].
Qed.
End Fold.

Lemma apply_ext {S} (f g : S -> dplan -> S * bool) : (forall s n, f s n = g s n) -> forall p s, apply_driver_path f p s = apply_driver_path g p s.
Proof.
  intros E p. induction p as [j l r IH|o cs IH] using dplan_ind'; intros s; cbn; rewrite E.
  - destruct (g s (DJoin j l r)) as [s1 [|]]; auto.
  - destruct (g s (DOther o cs)) as [s1 [|]]; [|reflexivity]. revert s1. induction IH as [|c cs Hc _ IHc]; intros s1; [reflexivity|].
    rewrite Hc. destruct (apply_driver_path g c s1) as [s2 [|]]; [apply IHc|reflexivity].
Qed.

(** * The rows read *)
Definition pull_step (checks : bool) (output_rows : nat -> option N) (parts : N) (s : Res N) (id : nat) : Res N * bool :=
  match s with
  | Ok acc => match output_rows id with
              | Some rows => (let* share := usize_div rows parts in usize_add checks acc share, true)
              | None => (s, true)
              end
  | _ => (s, true)
  end.
Lemma pulled_leaves checks output_rows parts p :
  rows_pulled checks output_rows parts p =
  fst (over (pull_step checks output_rows parts) (map snd (leaves p)) (Ok 0%N)).
Proof.
  unfold rows_pulled. rewrite <- walk_leaves. f_equal. apply apply_ext. intros s n. unfold visitor, pull_step.
  destruct s as [acc| |], (is_leaf n); reflexivity.
Qed.

Lemma sum_app a b : sum (a ++ b) = (sum a + sum b)%N.
Proof. unfold sum. induction a as [|x a IH]; cbn; [reflexivity|]. rewrite IH. lia. Qed.

Lemma over_sum checks output_rows parts l : (0 < parts)%N -> forall acc,
  (acc + sum (map (fun id => value (output_rows id) / parts) l) <= usize_max)%N ->
  over (pull_step checks output_rows parts) l (Ok acc) = (Ok (acc + sum (map (fun id => value (output_rows id) / parts) l))%N, true).
Proof.
  intros Hp. induction l as [|id l IH]; intros acc H; cbn [over map sum fold_right] in *.
  - now rewrite N.add_0_r.
  - fold (sum (map (fun id => (value (output_rows id) / parts)%N) l)) in *. unfold pull_step at 1. destruct (output_rows id) as [rows|]; cbn [value] in *.
    + unfold usize_div at 1. destruct (N.eqb_spec parts 0) as [E|_]; [lia|]. cbn [bind]. unfold usize_add at 1.
      destruct (N.leb_spec (acc + rows / parts) usize_max) as [_|L]; [|lia]. rewrite IH by lia. now rewrite N.add_assoc.
    + rewrite N.div_0_l, N.add_0_l in H by lia. rewrite IH by assumption. rewrite N.div_0_l by lia. now rewrite N.add_0_l.
Qed.

Definition shares (output_rows : nat -> option N) (parts : N) (ls : list (list nat * nat)) : N :=
  sum (map (fun '(_, id) => (value (output_rows id) / parts)%N) ls).
Lemma shares_snd output_rows parts ls : shares output_rows parts ls = sum (map (fun id => (value (output_rows id) / parts)%N) (map snd ls)).
Proof. unfold shares. rewrite map_map. f_equal. apply map_ext. now intros []. Qed.

Lemma pulled_shares checks output_rows parts p : (0 < parts)%N -> (shares output_rows parts (leaves p) <= usize_max)%N ->
  rows_pulled checks output_rows parts p = Ok (shares output_rows parts (leaves p)).
Proof.
  intros Hp H. rewrite pulled_leaves. rewrite shares_snd in *. rewrite over_sum; [|exact Hp|now rewrite N.add_0_l]. now rewrite N.add_0_l.
Qed.

(** Shares against rows. *)
Lemma shares_le output_rows parts ls : (0 < parts)%N -> (parts * shares output_rows parts ls <= rows_of output_rows ls)%N.
Proof.
  intros Hp. unfold shares, rows_of. induction ls as [|[a id] ls IH]; cbn; [lia|].
  fold (sum (map (fun '(_, id) => (value (output_rows id) / parts)%N) ls)) in *. fold (sum (map (fun '(_, id) => value (output_rows id)) ls)) in *.
  pose proof (N.mul_div_le (value (output_rows id)) parts). lia.
Qed.
Lemma shares_ge output_rows parts ls : (0 < parts)%N ->
  (rows_of output_rows ls <= parts * shares output_rows parts ls + N.of_nat (List.length ls) * (parts - 1))%N.
Proof.
  intros Hp. unfold shares, rows_of. induction ls as [|[a id] ls IH]; cbn [map List.length fold_right sum]; [cbn; lia|].
  fold (sum (map (fun '(_, id) => (value (output_rows id) / parts)%N) ls)) in *. fold (sum (map (fun '(_, id) => value (output_rows id)) ls)) in *.
  pose proof (N.div_mod (value (output_rows id)) parts). pose proof (N.mod_lt (value (output_rows id)) parts). rewrite Nat2N.inj_succ. nia.
Qed.

Lemma rows_of_le a b ls : (forall at_ id, In (at_, id) ls -> (value (a id) <= value (b id))%N) -> (rows_of a ls <= rows_of b ls)%N.
Proof.
  intros H. unfold rows_of. induction ls as [|[x id] ls IH]; cbn; [lia|].
  pose proof (H x id (or_introl eq_refl)). assert (forall at_ id, In (at_, id) ls -> (value (a id) <= value (b id))%N) by (intros; eapply H; right; eauto).
  specialize (IH H1). unfold sum in IH. lia.
Qed.

Lemma sum_le_all (l : list N) b : Forall (fun x => x <= b)%N l -> (sum l <= N.of_nat (List.length l) * b)%N.
Proof. induction 1 as [|x l Hx _ IH]; cbn [sum fold_right List.length]; [cbn; lia|]. fold (sum l). rewrite Nat2N.inj_succ. nia. Qed.

(** * The rows announced *)
Lemma announcements_leaves statistics p :
  announcements statistics p =
  fst (over (fun s id => match statistics id with Some rows => (s ++ [rows], true) | None => (s, false) end) (map snd (leaves p)) []).
Proof. unfold announcements. rewrite <- walk_leaves. reflexivity. Qed.

Fixpoint until (statistics : nat -> option (option N)) (l : list nat) : list (option N) :=
  match l with [] => [] | id :: l => match statistics id with Some rows => rows :: until statistics l | None => [] end end.
Lemma over_announced statistics l : forall s : list (option N),
  fst (over (fun s id => match statistics id with Some rows => (s ++ [rows], true) | None => (s, false) end) l s) =
  s ++ until statistics l.
Proof.
  induction l as [|id l IH]; intros s; cbn; [now rewrite app_nil_r|]. destruct (statistics id) as [rows|]; [|cbn; now rewrite app_nil_r].
  rewrite IH. now rewrite <- app_assoc.
Qed.

Lemma sum_cons x l : sum (x :: l) = (x + sum l)%N.
Proof. reflexivity. Qed.
Lemma leaf_rows_some checks l : forall t, (t + sum (map value l) <= usize_max)%N -> leaf_rows checks (Some t) l = Ok (Some (t + sum (map value l))%N).
Proof.
  induction l as [|[n|] l IH]; intros t H; cbn [leaf_rows map value] in *; rewrite ?sum_cons in *.
  - change (sum []) with 0%N. now rewrite N.add_0_r.
  - unfold usize_add. destruct (N.leb_spec (t + n) usize_max) as [_|L]; [|lia]. cbn [bind]. rewrite IH by lia. now rewrite N.add_assoc.
  - rewrite IH by lia. now rewrite N.add_0_l.
Qed.
Lemma leaf_rows_none checks l : (sum (map value l) <= usize_max)%N ->
  leaf_rows checks None l = Ok (if forallb (fun o => match o with None => true | _ => false end) l then None else Some (sum (map value l))).
Proof.
  induction l as [|[n|] l IH]; intros H; cbn [leaf_rows map value forallb andb] in *; rewrite ?sum_cons in *.
  - reflexivity.
  - now rewrite leaf_rows_some.
  - rewrite N.add_0_l in *. now apply IH.
Qed.
