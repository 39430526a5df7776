(** Who gets the tasks that are left over when the shares of a union's children are rounded down: lemmas. *)
From Verif Require Import Base NetModel CiuModel CiuSpec CiuProofs.
From Coq Require Import ZArith SpecFloat Sorting.Sorted.

Definition at0 (l : list nat) (i : nat) : nat := nth i l 0.
Definition precedes (l : list nat) (a b : nat) : Prop := exists l1 l2 l3, l = l1 ++ a :: l2 ++ b :: l3.

Lemma precedes_cons x l a b : precedes (x :: l) a b -> (x = a /\ In b l) \/ precedes l a b.
Proof.
  intros (l1 & l2 & l3 & E). destruct l1 as [|y l1]; cbn in E; injection E as -> ->.
  - left. split; [reflexivity|]. apply in_or_app. right. left. reflexivity.
  - right. exists l1, l2, l3. reflexivity.
Qed.
Lemma precedes_in l a b : precedes l a b -> In a l /\ In b l.
Proof.
  intros (l1 & l2 & l3 & ->). split; apply in_or_app; right; [left; reflexivity|right; apply in_or_app; right; left; reflexivity].
Qed.

Lemma at0_upd l i v j : at0 (upd l i v) j = if (i =? j) && (i <? List.length l) then v else at0 l j.
Proof.
  unfold at0. revert i j. induction l as [|x l IH]; intros i j.
  - cbn. rewrite andb_false_r. reflexivity.
  - destruct i as [|i], j as [|j]; cbn; try reflexivity. rewrite IH. reflexivity.
Qed.
Lemma at0_nth l i k : nth_error l i = Some k -> at0 l i = k.
Proof. intros H. unfold at0. apply nth_error_nth. exact H. Qed.

Lemma pass_order children order : forall counts lft progress counts' lft' progress', NoDup order ->
  pass children order counts lft progress = Ok (counts', lft', progress') ->
  (forall i, ~ In i order -> at0 counts' i = at0 counts i) /\ (forall i, at0 counts i <= at0 counts' i) /\
  (forall i, at0 counts' i <= at0 counts i + 1) /\
  (forall a b c, precedes order a b -> nth_error children a = Some c -> at0 counts b < at0 counts' b ->
     at0 counts a < at0 counts' a \/ at_cap c (at0 counts a) = true).
Proof.
  induction order as [|idx rest IH]; intros counts lft progress counts' lft' progress' N E; cbn [pass] in E.
  - injection E as <- _ _. repeat split; auto; try lia.
  - destruct (Nat.eqb_spec lft 0) as [->|Hne].
    { injection E as <- _ _. repeat split; auto; try lia. }
    destruct (nth_error children idx) as [c|] eqn:Ec; [|discriminate].
    destruct (nth_error counts idx) as [k|] eqn:Ek; [|discriminate].
    inversion N as [|? ? Nin N']; subst. pose proof (at0_nth _ _ _ Ek) as Ak.
    destruct (at_cap c k) eqn:Cap.
    + destruct (IH _ _ _ _ _ _ N' E) as (O & L & U & P). repeat split; auto.
      { intros i Hi. apply O. intro H. apply Hi. right. exact H. }
      intros a b c' Pr Hc Hb. apply precedes_cons in Pr as [[-> Hin]|Pr]; [|eauto].
      right. rewrite Ak. congruence.
    + destruct (IH _ _ _ _ _ _ N' E) as (O & L & U & P).
      assert (Li : idx < List.length counts) by (apply nth_error_Some; congruence).
      assert (A1 : at0 counts' idx = at0 counts idx + 1).
      { rewrite (O idx Nin), at0_upd, Nat.eqb_refl. destruct (Nat.ltb_spec idx (List.length counts)); [cbn; lia|lia]. }
      assert (Same : forall i, i <> idx -> at0 (upd counts idx (k + 1)) i = at0 counts i).
      { intros i Hi. rewrite at0_upd. destruct (Nat.eqb_spec idx i); [congruence|reflexivity]. }
      split; [|split; [|split]].
      * intros i Hi. rewrite O by (intro H; apply Hi; right; exact H). apply Same. intros ->. apply Hi. left. reflexivity.
      * intros i. destruct (Nat.eq_dec i idx) as [->|Hi]; [lia|]. rewrite <- (Same i Hi). apply L.
      * intros i. destruct (Nat.eq_dec i idx) as [->|Hi]; [lia|]. rewrite <- (Same i Hi). apply U.
      * intros a b c' Pr Hc Hb. apply precedes_cons in Pr as [[-> Hin]|Pr]; [left; lia|].
        destruct (precedes_in _ _ _ Pr) as (Ha & Hb').
        assert (a <> idx) by (intros ->; contradiction). assert (b <> idx) by (intros ->; contradiction).
        rewrite <- (Same a), <- (Same b) in * by assumption. eauto.
Qed.

Lemma at_cap_mono c k k' : k <= k' -> at_cap c k = true -> at_cap c k' = true.
Proof. unfold at_cap. destruct (cw_max c); [|discriminate]. rewrite !Nat.leb_le. lia. Qed.

Lemma hand_out_order children order : NoDup order -> forall fuel counts lft counts',
  hand_out fuel children order counts lft = Ok counts' ->
  (forall i, at0 counts i <= at0 counts' i) /\
  (forall a b c, precedes order a b -> nth_error children a = Some c ->
     at0 counts' b - at0 counts b <= at0 counts' a - at0 counts a \/ at_cap c (at0 counts' a) = true).
Proof.
  intros N. induction fuel as [|fuel IH]; intros counts lft counts' E; cbn [hand_out] in E.
  - destruct (Nat.eqb_spec lft 0); [|discriminate]. injection E as <-. split; auto. intros; left; lia.
  - destruct (Nat.eqb_spec lft 0); [injection E as <-; split; auto; intros; left; lia|].
    destruct (pass children order counts lft false) as [[[c1 l1] p1]|?|?] eqn:Ep; try discriminate. cbn [bind] in E.
    destruct (pass_order _ _ _ _ _ _ _ _ N Ep) as (_ & L & U & P). destruct p1.
    + destruct (IH _ _ _ E) as (L' & P'). split; [intros i; specialize (L i); specialize (L' i); lia|].
      intros a b c Pr Hc. destruct (P' a b c Pr Hc) as [H|H]; [|right; exact H].
      pose proof (L a). pose proof (L' a). pose proof (L b). pose proof (L' b). pose proof (U b). pose proof (U a).
      destruct (Nat.eq_dec (at0 c1 b) (at0 counts b)) as [Eb|Eb]; [left; lia|].
      destruct (P a b c Pr Hc) as [Ha|Ha]; [lia|left; lia|right]. eapply at_cap_mono; [|exact Ha]. lia.
    + injection E as <-. split; [exact L|]. intros a b c Pr Hc.
      pose proof (L a). pose proof (L b). pose proof (U b). pose proof (U a).
      destruct (Nat.eq_dec (at0 c1 b) (at0 counts b)) as [Eb|Eb]; [left; lia|].
      destruct (P a b c Pr Hc) as [Ha|Ha]; [lia|left; lia|right]. eapply at_cap_mono; [|exact Ha]. lia.
Qed.

(** * Floats in order *)
Definition fkey (x : f64) : Z * Z * Z :=
  match x with
  | S754_nan | S754_zero _ => (0, 0, 0)
  | S754_infinity false => (2, 0, 0)
  | S754_infinity true => (-2, 0, 0)
  | S754_finite false m e => (1, e, Zpos m)
  | S754_finite true m e => (-1, - e, Zneg m)
  end%Z.
Definition lt3 (x y : Z * Z * Z) : Prop :=
  let '(a, b, c) := x in let '(a', b', c') := y in (a < a' \/ (a = a' /\ (b < b' \/ (b = b' /\ c < c'))))%Z.
Lemma compare_key x y : x <> S754_nan -> y <> S754_nan ->
  exists o, SFcompare x y = Some o /\ CompareSpec (fkey x = fkey y) (lt3 (fkey x) (fkey y)) (lt3 (fkey y) (fkey x)) o.
Proof.
  intros Nx Ny.
  destruct x as [sx|[]| |[] mx ex], y as [sy|[]| |[] my ey]; try congruence; cbn [SFcompare fkey];
    eexists; (split; [reflexivity|]); try (constructor; cbn; lia); try (constructor; reflexivity).
  - destruct (Z.compare_spec ex ey) as [->|H|H]; try (constructor; cbn; lia).
    change (Pos.compare_cont Eq mx my) with (Pos.compare mx my). destruct (Pos.compare_spec mx my) as [->|H|H]; constructor; cbn; try lia; reflexivity.
  - destruct (Z.compare_spec ex ey) as [->|H|H]; try (constructor; cbn; lia).
    change (Pos.compare_cont Eq mx my) with (Pos.compare mx my). destruct (Pos.compare_spec mx my) as [->|H|H]; constructor; cbn; try lia; reflexivity.
Qed.
Lemma lt3_trans x y z : lt3 x y -> lt3 y z -> lt3 x z.
Proof. destruct x as [[? ?] ?], y as [[? ?] ?], z as [[? ?] ?]. cbn. lia. Qed.
Lemma lt3_irrefl x : ~ lt3 x x.
Proof. destruct x as [[? ?] ?]. cbn. lia. Qed.

Lemma order_le_key sh a b : frac sh a <> S754_nan -> frac sh b <> S754_nan ->
  order_le sh a b = true <-> lt3 (fkey (frac sh b)) (fkey (frac sh a)) \/ (fkey (frac sh b) = fkey (frac sh a) /\ a <= b).
Proof.
  intros Na Nb. unfold order_le. destruct (compare_key _ _ Nb Na) as (o & -> & S). inversion S as [E|E|E]; subst.
  - rewrite Nat.leb_le. split; [auto|]. intros [H|[_ H]]; [|exact H]. rewrite E in H. exfalso. exact (lt3_irrefl _ H).
  - split; auto.
  - split; [discriminate|]. intros [H|[H _]]; exfalso.
    + exact (lt3_irrefl _ (lt3_trans _ _ _ H E)).
    + rewrite H in E. exact (lt3_irrefl _ E).
Qed.
Lemma order_le_trans sh a b c : frac sh a <> S754_nan -> frac sh b <> S754_nan -> frac sh c <> S754_nan ->
  order_le sh a b = true -> order_le sh b c = true -> order_le sh a c = true.
Proof.
  intros Na Nb Nc. rewrite !order_le_key by assumption. intros [H1|[E1 L1]] [H2|[E2 L2]].
  - left. eapply lt3_trans; eassumption.
  - left. rewrite E2. exact H1.
  - left. rewrite <- E1. exact H2.
  - right. split; [congruence|lia].
Qed.
Lemma order_le_total sh a b : frac sh a <> S754_nan -> frac sh b <> S754_nan -> order_le sh a b = false -> order_le sh b a = true.
Proof.
  intros Na Nb H. unfold order_le in *. destruct (compare_key _ _ Nb Na) as (o & E & S), (compare_key _ _ Na Nb) as (o' & E' & S').
  rewrite E in H. rewrite E'.
  inversion S as [K|K|K]; subst; try discriminate; inversion S' as [K'|K'|K']; subst; try reflexivity.
  - apply Nat.leb_gt in H. apply Nat.leb_le. lia.
  - rewrite K in K'. exfalso. exact (lt3_irrefl _ K').
  - rewrite K' in K. exfalso. exact (lt3_irrefl _ K).
  - exfalso. exact (lt3_irrefl _ (lt3_trans _ _ _ K K')).
Qed.

Lemma insert_by_perm le x l : Permutation (x :: l) (insert_by le x l).
Proof.
  induction l as [|y l IH]; cbn; [apply Permutation_refl|]. destruct (le x y); [apply Permutation_refl|].
  eapply Permutation_trans; [apply perm_swap|]. constructor. exact IH.
Qed.
Lemma sort_by_perm le l : Permutation l (sort_by le l).
Proof. induction l as [|x l IH]; cbn; [constructor|]. eapply Permutation_trans; [apply perm_skip, IH|apply insert_by_perm]. Qed.
Lemma sort_by_sorted sh l : (forall i, In i l -> frac sh i <> S754_nan) ->
  StronglySorted (fun a b => order_le sh a b = true) (sort_by (order_le sh) l).
Proof.
  induction l as [|x l IH]; intros F; cbn; [constructor|].
  assert (Fl : forall i, In i (sort_by (order_le sh) l) -> frac sh i <> S754_nan).
  { intros i Hi. apply F. right. eapply Permutation_in; [apply Permutation_sym, sort_by_perm|exact Hi]. }
  assert (Fx : frac sh x <> S754_nan) by (apply F; left; reflexivity).
  specialize (IH (fun i Hi => F i (or_intror Hi))). induction (sort_by (order_le sh) l) as [|y r IHr]; cbn; [repeat constructor|].
  inversion IH as [|? ? Hs Hy]; subst. assert (Fy : frac sh y <> S754_nan) by (apply Fl; left; reflexivity).
  assert (Fr : forall i, In i r -> frac sh i <> S754_nan) by (intros i Hi; apply Fl; right; exact Hi).
  destruct (order_le sh x y) eqn:C.
  - constructor; [exact IH|]. constructor; [exact C|]. rewrite Forall_forall in *. intros z Hz.
    eapply order_le_trans; [exact Fx|exact Fy|apply Fr, Hz|exact C|apply Hy, Hz].
  - constructor; [apply IHr; assumption|]. rewrite Forall_forall in *. intros z Hz.
    eapply Permutation_in in Hz; [|apply Permutation_sym, insert_by_perm]. destruct Hz as [<-|Hz]; [|auto].
    apply order_le_total; assumption.
Qed.
Lemma sorted_precedes (R : nat -> nat -> Prop) l a b : StronglySorted R l -> In a l -> In b l -> a <> b -> ~ R b a -> precedes l a b.
Proof.
  induction 1 as [|x l Hs IH Hx]; intros Ha Hb Ne NR; [destruct Ha|]. rewrite Forall_forall in Hx.
  destruct Ha as [->|Ha].
  - destruct Hb as [->|Hb]; [contradiction|]. apply in_split in Hb as (l2 & l3 & ->). exists [], l2, l3. reflexivity.
  - destruct Hb as [->|Hb]; [exfalso; apply NR, Hx, Ha|].
    destruct (IH Ha Hb Ne NR) as (l1 & l2 & l3 & ->). exists (x :: l1), l2, l3. reflexivity.
Qed.

Lemma larger_first sh n a b : (forall i, i < n -> frac sh i <> S754_nan) -> a < n -> b < n ->
  SFcompare (frac sh b) (frac sh a) = Some Lt -> precedes (sort_by (order_le sh) (seq 0 n)) a b.
Proof.
  intros F La Lb C.
  assert (I : forall i, i < n -> In i (sort_by (order_le sh) (seq 0 n))).
  { intros i Hi. eapply Permutation_in; [apply sort_by_perm|]. apply in_seq. lia. }
  eapply sorted_precedes; [apply sort_by_sorted; intros i Hi; apply in_seq in Hi; apply F; lia|auto|auto| |].
  - intros ->. destruct (compare_key (frac sh b) (frac sh b)) as (o & E & S); auto. rewrite C in E. injection E as <-.
    inversion S. exact (lt3_irrefl _ H).
  - intros H. apply order_le_key in H; auto. destruct (compare_key (frac sh b) (frac sh a)) as (o & E & S); auto.
    rewrite C in E. injection E as <-. inversion S as [|K|]; subst. destruct H as [H|[H _]].
    + exact (lt3_irrefl _ (lt3_trans _ _ _ H K)).
    + rewrite H in K. exact (lt3_irrefl _ K).
Qed.
