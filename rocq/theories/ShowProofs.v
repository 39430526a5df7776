(** Proofs about the text of metrics. *)
From Verif Require Import Base ShowModel ShowSpec.
From Coq Require DecimalPos DecimalN.
From Coq Require Import NArith DecimalString String Ascii Sorting.Sorted.
Open Scope string_scope.
Open Scope list_scope.

(** ** Numbers as text *)

Lemma uint_to_string_plus d r : NilZero.string_of_uint d <> String "+"%char r.
Proof. destruct d; cbn; discriminate. Qed.

Lemma parse_show n : (n < 2 ^ 64)%N -> parse_u64 (show n) = Some n.
Proof.
  intros H. unfold parse_u64, show.
  assert (E : strip_plus (NilZero.string_of_uint (N.to_uint n)) = NilZero.string_of_uint (N.to_uint n)).
  { pose proof (uint_to_string_plus (N.to_uint n)) as Hp. unfold strip_plus.
    destruct (NilZero.string_of_uint (N.to_uint n)) as [|c r]; [reflexivity|].
    destruct (Ascii.eqb c "+"%char) eqn:Ec; [|reflexivity]. apply Ascii.eqb_eq in Ec. subst. now destruct (Hp r). }
  rewrite E, NilZero.usu; [|destruct n; [discriminate|apply DecimalPos.Unsigned.to_uint_nonnil]].
  rewrite DecimalN.Unsigned.of_to. apply N.ltb_lt in H. now rewrite H.
Qed.

Lemma show_inj a b : (a < 2 ^ 64)%N -> (b < 2 ^ 64)%N -> show a = show b -> a = b.
Proof. intros Ha Hb E. apply parse_show in Ha, Hb. rewrite E in Ha. congruence. Qed.

(** ** The order of names *)

Lemma ascii_lt_trans a b c : Ascii.compare a b = Lt -> Ascii.compare b c = Lt -> Ascii.compare a c = Lt.
Proof. unfold Ascii.compare. rewrite !N.compare_lt_iff. lia. Qed.
Lemma ascii_refl a : Ascii.compare a a = Eq.
Proof. apply N.compare_refl. Qed.
Lemma ascii_eq a b : Ascii.compare a b = Eq -> a = b.
Proof. apply Ascii.compare_eq_iff. Qed.

Lemma slt_trans a : forall b c, String.compare a b = Lt -> String.compare b c = Lt -> String.compare a c = Lt.
Proof.
  induction a as [|x a IH]; intros [|y b] [|z c]; cbn; try discriminate; auto.
  destruct (Ascii.compare x y) eqn:E1; try discriminate; destruct (Ascii.compare y z) eqn:E2; try discriminate; intros H1 H2.
  - apply ascii_eq in E1, E2. subst. rewrite ascii_refl. eauto.
  - apply ascii_eq in E1. subst. now rewrite E2.
  - apply ascii_eq in E2. subst. now rewrite E1.
  - now rewrite (ascii_lt_trans _ _ _ E1 E2).
Qed.
Lemma slt_irrefl a : String.compare a a <> Lt.
Proof. induction a; cbn; [discriminate|now rewrite ascii_refl]. Qed.

Lemma earlier_trans a b c : earlier a b -> earlier b c -> earlier a c.
Proof. destruct a, b, c; cbn; auto; try tauto. lia. Qed.
Lemma earlier_irrefl a : ~ earlier a a.
Proof. destruct a; cbn; lia || tauto. Qed.

Definition front (a b : nat * string) : Prop := fst a < fst b \/ (fst a = fst b /\ String.compare (snd a) (snd b) = Lt).
Lemma front_trans a b c : front a b -> front b c -> front a c.
Proof.
  unfold front. intros [H1|[H1 H2]] [H3|[H3 H4]]; try (left; lia). right. split; [lia|]. eapply slt_trans; eauto.
Qed.
Lemma front_irrefl a : ~ front a a.
Proof. intros [H|[_ H]]; [lia|now apply slt_irrefl in H]. Qed.

Lemma before_cases a b : before a b <-> front (fst a) (fst b) \/ (fst a = fst b /\ earlier (snd a) (snd b)).
Proof.
  destruct a as [[k n] t], b as [[k' n'] t']. unfold before, front. cbn [fst snd]. change (match t, t' with None, Some _ => True | Some x, Some y => (x < y)%N | _, None => False end) with (earlier t t').
  split.
  - intros [H|[-> [H|[-> H]]]]; auto.
  - intros [[H|[-> H]]|[E H]]; auto. injection E as -> ->. auto.
Qed.
Lemma before_trans a b c : before a b -> before b c -> before a c.
Proof.
  rewrite !before_cases. intros [H1|[H1 H2]] [H3|[H3 H4]].
  - left. eapply front_trans; eauto.
  - left. now rewrite <- H3.
  - left. now rewrite H1.
  - right. split; [congruence|]. eapply earlier_trans; eauto.
Qed.
Lemma before_irrefl a : ~ before a a.
Proof. rewrite before_cases. intros [H|[_ H]]; [now apply front_irrefl in H|now apply earlier_irrefl in H]. Qed.

Lemma sorted_unique {A} (lt : A -> A -> Prop) (l l' : list A) :
  (forall a b c, lt a b -> lt b c -> lt a c) -> (forall a, ~ lt a a) ->
  StronglySorted lt l -> StronglySorted lt l' -> (forall a, In a l <-> In a l') -> l = l'.
Proof.
  intros Ht Hi H. revert l'. induction H as [|a l Hs IH Hf]; intros l' H' E.
  - destruct l' as [|b l']; auto. destruct (proj2 (E b) (or_introl eq_refl)).
  - inversion H' as [|b m Hs' Hf']; subst.
    + destruct (proj1 (E a) (or_introl eq_refl)).
    + rewrite Forall_forall in Hf, Hf'. assert (a = b).
      { destruct (proj1 (E a) (or_introl eq_refl)) as [->|Hb]; [reflexivity|].
        destruct (proj2 (E b) (or_introl eq_refl)) as [->|Ha]; [reflexivity|].
        exfalso. apply (Hi a). eapply Ht; [apply Hf; exact Ha|apply Hf'; exact Hb]. }
      subst b. f_equal. apply IH; auto. intros c. split; intros Hc.
      * destruct (proj1 (E c) (or_intror Hc)) as [->|]; auto. exfalso. apply (Hi c). now apply Hf.
      * destruct (proj2 (E c) (or_intror Hc)) as [->|]; auto. exfalso. apply (Hi c). now apply Hf'.
Qed.

Lemma sorted_filter {A} (lt : A -> A -> Prop) p (l : list A) : StronglySorted lt l -> StronglySorted lt (filter p l).
Proof.
  induction 1 as [|a l Hs IH Hf]; cbn; [constructor|]. destruct (p a); auto. constructor; auto.
  rewrite Forall_forall in *. intros x Hx. apply filter_In in Hx. now apply Hf.
Qed.
Lemma sorted_map {A B} (f : A -> B) (lt : A -> A -> Prop) (lt' : B -> B -> Prop) (l : list A) :
  (forall a b, In a l -> In b l -> lt a b -> lt' (f a) (f b)) -> StronglySorted lt l -> StronglySorted lt' (map f l).
Proof.
  intros H Hs. induction Hs as [|a l Hs IH Hf]; cbn; constructor.
  - apply IH. intros x y Hx Hy. apply H; now right.
  - rewrite Forall_map. rewrite Forall_forall in *. intros x Hx. apply H; [now left|now right|now apply Hf].
Qed.

Section Proofs.
Variables (sort_key : nat -> nat) (timestamp : nat -> bool) (op : nat -> N -> N -> N) (unit : nat -> N)
  (display : mvalue -> string).
Notation total := (total op unit).

(** ** Aggregation *)

Definition mkey (m : metric) : key := (name m, task_id m).
Definition recorded (k : key) (ms : list metric) : list N :=
  map (fun m => amount (mval m)) (filter (fun m => key_eqb k (mkey m)) ms).

Lemma key_eqb_eq a b : key_eqb a b = true <-> a = b.
Proof.
  destruct a as [n i], b as [n' i']. unfold key_eqb. cbn. rewrite andb_true_iff, String.eqb_eq.
  destruct i as [i|], i' as [i'|]; cbn; rewrite ?String.eqb_eq; split; try (intros [? ?]; subst; try discriminate; reflexivity);
    intros E; injection E; intros; subst; auto; discriminate.
Qed.

Definition sum_of (ms : list metric) (k : key) (a : metric) : Prop :=
  exists m, In m ms /\ mkey m = k /\
    a = mkMetric (mkValue (variant (mval m)) (fst k) (total (variant (mval m)) (recorded k ms))) None (labels_of (snd k)).

Definition summed (ms : list metric) (mp : list (key * metric)) : Prop :=
  NoDup (map fst mp) /\ (forall k, In k (map fst mp) <-> exists m, In m ms /\ mkey m = k) /\
  forall k a, In (k, a) mp -> sum_of ms k a.

Lemma recorded_snoc k ms m : recorded k (ms ++ [m]) = (recorded k ms ++ if key_eqb k (mkey m) then [amount (mval m)] else [])%list.
Proof. unfold recorded. rewrite filter_app, map_app. cbn. now destruct (key_eqb k (mkey m)). Qed.
Lemma total_snoc v l x : total v (l ++ [x]) = op v (total v l) x.
Proof. unfold ShowSpec.total. now rewrite fold_left_app. Qed.

Lemma recorded_none k ms : (forall m, In m ms -> mkey m <> k) -> recorded k ms = [].
Proof.
  intros H. unfold recorded. induction ms as [|m ms IH]; cbn; auto.
  destruct (key_eqb k (mkey m)) eqn:E; [apply key_eqb_eq in E; subst; now destruct (H m (or_introl eq_refl))|].
  apply IH. intros x Hx. apply H. now right.
Qed.

Lemma aggregate_into_spec m mp ms : one_kind (ms ++ [m]) -> NoDup (map fst mp) ->
  (forall k a, In (k, a) mp -> sum_of ms k a) ->
  (In (mkey m) (map fst mp) \/ recorded (mkey m) ms = []) ->
  exists mp', aggregate_into op unit m mp = Ok mp' /\
    map fst mp' = (if existsb (fun k => key_eqb k (mkey m)) (map fst mp) then map fst mp else (map fst mp ++ [mkey m])%list) /\
    forall k a, In (k, a) mp' -> sum_of (ms ++ [m]) k a.
Proof.
  intros Hk. induction mp as [|[k0 a0] mp IH]; intros Hn Hs Hr.
  - destruct Hr as [[]|Hr]. cbn. unfold aggregate. cbn. rewrite Nat.eqb_refl. cbn. eexists. split; [reflexivity|].
    split; [reflexivity|]. intros k a [E|[]]. injection E as <- <-. exists m. split; [apply in_app_iff; cbn; auto|]. split; [reflexivity|].
    rewrite recorded_snoc. change (name m, task_id m) with (mkey m). rewrite Hr, (proj2 (key_eqb_eq _ _) eq_refl). reflexivity.
  - assert (H0 := Hs k0 a0 (or_introl eq_refl)). cbn [map fst] in Hn. inversion Hn as [|? ? Hni Hn']; subst.
    cbn [aggregate_into]. change (name m, task_id m) with (mkey m). destruct (key_eqb k0 (mkey m)) eqn:E.
    + pose proof E as E'. apply key_eqb_eq in E'. destruct H0 as (m0 & Hin & Ek & ->).
      assert (V : variant (mval m0) = variant (mval m)).
      { apply Hk; try (apply in_app_iff; cbn; auto). unfold mkey in *. congruence. }
      unfold aggregate. cbn [mval variant vname amount]. rewrite V, Nat.eqb_refl. cbn [bind]. eexists. split; [reflexivity|].
      split; [cbn [map fst existsb]; now rewrite E|]. intros k a [Ea|Hin'].
      * injection Ea as <- <-. exists m. split; [apply in_app_iff; cbn; auto|]. split; [auto|]. cbn [mval variant mlabels mpartition amount].
        rewrite recorded_snoc, E, total_snoc. reflexivity.
      * assert (Hkn : k <> k0). { intros ->. apply Hni. apply in_map_iff. now exists (k0, a). }
        destruct (Hs k a (or_intror Hin')) as (m1 & Hm1 & Ek1 & ->). exists m1. split; [apply in_app_iff; auto|]. split; [auto|].
        rewrite recorded_snoc. assert (E1 : key_eqb k (mkey m) = false).
        { destruct (key_eqb k (mkey m)) eqn:E1; auto. apply key_eqb_eq in E1. congruence. }
        now rewrite E1, app_nil_r.
    + assert (Hnk : k0 <> mkey m). { intros Ek. apply key_eqb_eq in Ek. congruence. }
      destruct IH as (mp' & Em & Ef & Hs'); auto.
      { intros k a Hin. apply Hs. now right. }
      { destruct Hr as [[Ek|Hr]|Hr]; auto. now destruct Hnk. }
      rewrite Em. cbn [bind]. eexists. split; [reflexivity|]. split.
      { cbn [map fst existsb]. rewrite E, Ef. cbn [orb]. now destruct (existsb _ _). }
      intros k a [Ea|Hin].
      * injection Ea as <- <-. destruct H0 as (m0 & Hm0 & Ek0 & ->). exists m0. split; [apply in_app_iff; auto|]. split; [auto|].
        now rewrite recorded_snoc, E, app_nil_r.
      * auto.
Qed.

Lemma aggregate_all_spec ms : forall done mp, one_kind (done ++ ms) -> summed done mp ->
  exists mp', aggregate_all op unit ms mp = Ok mp' /\ summed (done ++ ms) mp'.
Proof.
  induction ms as [|m ms IH]; intros done mp Hk (Hn & Hks & Hs); cbn [aggregate_all].
  - exists mp. rewrite app_nil_r. split; [reflexivity|]. now split.
  - assert (Hk1 : one_kind (done ++ [m])).
    { intros a b Ha Hb. apply Hk; apply in_app_iff; [apply in_app_iff in Ha|apply in_app_iff in Hb]; cbn in *; tauto. }
    destruct (aggregate_into_spec m mp done Hk1 Hn Hs) as (mp' & E & Ef & Hs').
    { destruct (in_dec (fun a b => match bool_dec (key_eqb a b) true with
         | left e => left (proj1 (key_eqb_eq a b) e) | right ne => right (fun e => ne (proj2 (key_eqb_eq a b) e)) end) (mkey m) (map fst mp)) as [Hi|Hi]; auto.
      right. apply recorded_none. intros x Hx Ex. apply Hi, Hks. eauto. }
    rewrite E. cbn [bind]. replace (done ++ m :: ms)%list with ((done ++ [m]) ++ ms)%list in * by now rewrite <- app_assoc.
    apply IH; auto. split; [|split]; auto.
    + rewrite Ef. destruct (existsb _ _) eqn:Ex; auto. apply NoDup_app_disjoint; auto; [repeat constructor; auto|].
      intros x Hx [<-|[]]. assert (existsb (fun k => key_eqb k (mkey m)) (map fst mp) = true).
      { apply existsb_exists. exists (mkey m). split; auto. now apply key_eqb_eq. } congruence.
    + intros k. rewrite Ef. destruct (existsb _ _) eqn:Ex.
      * rewrite Hks. split; intros (x & Hx & E1).
        -- exists x. split; auto. apply in_app_iff; auto.
        -- apply in_app_iff in Hx. destruct Hx as [Hx|[->|[]]]; [eauto|]. apply existsb_exists in Ex.
           destruct Ex as (k' & Hk' & E2). apply key_eqb_eq in E2. subst. apply Hks. congruence.
      * rewrite in_app_iff, Hks. cbn. split.
        -- intros [(x & Hx & E1)|[<-|[]]]; [exists x|exists m]; split; auto; apply in_app_iff; cbn; auto.
        -- intros (x & Hx & E1). apply in_app_iff in Hx. destruct Hx as [Hx|[->|[]]]; [left|right]; eauto.
Qed.

Lemma aggregate_spec ms : one_kind ms -> exists mp, aggregate_by_task_id op unit ms = Ok (map snd mp) /\ summed ms mp.
Proof.
  intros Hk. destruct (aggregate_all_spec ms [] [] Hk) as (mp & E & H).
  - split; [constructor|]. split; [|intros ? ? []]. intros k. split; [intros []|intros (m & [] & _)].
  - exists mp. unfold aggregate_by_task_id. rewrite E. auto.
Qed.

(** ** Sorting *)

Definition id_of (m : metric) : option N := match task_id m with Some id => parse_u64 id | None => None end.
Definition numbered (ms : list metric) : Prop :=
  forall m, In m ms -> task_id m = None \/ exists t, (t < 2 ^ 64)%N /\ task_id m = Some (show t).

Lemma labels_task id : task_id (mkMetric (mkValue 0 "" 0) None (labels_of id)) = id.
Proof. destruct id as [id|]; reflexivity. Qed.

Lemma summed_key ms k a : sum_of ms k a -> mkey a = k.
Proof. intros (m & _ & _ & ->). destruct k as [n id]. unfold mkey. f_equal. exact (labels_task id). Qed.

Lemma id_inj a b : numbered [a; b] -> id_of a = id_of b -> task_id a = task_id b.
Proof.
  intros H. unfold id_of.
  destruct (H a ltac:(cbn; auto)) as [->|(t & Ht & ->)], (H b ltac:(cbn; auto)) as [->|(t' & Ht' & ->)]; rewrite ?parse_show by auto;
    intros E; congruence.
Qed.

Definition displayed_list (ms l : list metric) : Prop :=
  StronglySorted (fun a b => before (sorting sort_key a) (sorting sort_key b)) l /\
  forall a, In a l <-> sum_of ms (mkey a) a.

Lemma summed_values ms mp a : one_kind ms -> summed ms mp -> In a (map snd mp) <-> sum_of ms (mkey a) a.
Proof.
  intros Hone (Hn & Hk & Hs). rewrite in_map_iff. split.
  - intros ([k a'] & <- & Hin). cbn. apply Hs in Hin. now rewrite (summed_key ms k a').
  - intros H. pose proof H as (m & Hm & Em & Ea). assert (Hi : In (mkey a) (map fst mp)) by (apply Hk; eauto).
    apply in_map_iff in Hi. destruct Hi as ([k b] & Ek & Hin). cbn in Ek. subst k. exists (mkey a, b). split; auto. cbn.
    destruct (Hs _ _ Hin) as (m' & Hm' & Em' & ->). 
    assert (variant (mval m') = variant (mval m)) as ->; [|now symmetry]. apply Hone; auto. unfold mkey in *. congruence.
Qed.

Lemma formats_inv ms out : one_kind ms -> numbered ms -> formats sort_key timestamp op unit display ms out ->
  exists l, displayed_list ms l /\ out = text_of display (filter (fun m => negb (timestamp (variant (mval m)))) l).
Proof.
  intros Hone Hnum (l0 & l & E & Hp & Hs & ->). destruct (aggregate_spec ms Hone) as (mp & E' & Hsum).
  rewrite E in E'. injection E' as ->. exists l. split; [|reflexivity].
  assert (Hin : forall a, In a l <-> sum_of ms (mkey a) a).
  { intros a. rewrite <- (summed_values ms mp a Hone Hsum). split; apply Permutation_in; [now symmetry|auto]. }
  split; [|exact Hin].
  assert (Hnd : NoDup (map mkey l)).
  { eapply Permutation_NoDup; [apply Permutation_map; exact Hp|]. destruct Hsum as (Hn & _ & Hs'). rewrite map_map.
    replace (map (fun x => mkey (snd x)) mp) with (map fst mp); [exact Hn|]. apply map_ext_in. intros [k a] Hka. cbn.
    symmetry. eapply summed_key; eauto. }
  assert (Hnum' : numbered l).
  { intros a Ha. apply Hin in Ha. destruct Ha as (m & Hm & Em & _). unfold mkey in Em. injection Em as _ Et. rewrite <- Et. now apply Hnum. }
  clear - Hs Hnd Hnum'. induction Hs as [|a l Hs IH Hf]; constructor.
  - apply IH; [now inversion Hnd|]. intros x Hx. apply Hnum'. now right.
  - rewrite Forall_forall in *. intros b Hb. destruct (Hf b Hb) as [|E]; auto. exfalso. inversion Hnd; subst. apply H1.
    apply in_map_iff. exists b. split; auto. unfold mkey. unfold sorting in E. injection E as _ E1 E2. rewrite E1. f_equal.
    symmetry. apply id_inj; auto. intros x [<-|[<-|[]]]; apply Hnum'; cbn; auto.
Qed.

(** ** Grouping *)

Fixpoint group (l : list metric) : list (string * list metric) :=
  match l with
  | [] => []
  | x :: r =>
      match group r with
      | (n, ms) :: gs => if String.eqb (name x) n then (n, x :: ms) :: gs else (name x, [x]) :: (n, ms) :: gs
      | [] => [(name x, [x])]
      end
  end.
Definition labelled (m : metric) : bool := match task_id m with Some _ => true | None => false end.
Definition conv (g : string * list metric) : string * bool * list string :=
  (fst g, match snd g with m :: _ => labelled m | [] => false end, map (entry display) (snd g)).

Lemma group_head x r : exists ms gs, group (x :: r) = (name x, x :: ms) :: gs.
Proof.
  cbn. destruct (group r) as [|[n ms] gs]; eauto. destruct (String.eqb (name x) n) eqn:E; eauto. apply String.eqb_eq in E. subst. eauto.
Qed.

Lemma push_fold l : forall gs n b es, rev (fold_left (push display) l ((n, b, es) :: gs)) =
  rev gs ++ match group l with
            | (n', ms) :: gs' => if String.eqb n n' then (n, b, es ++ map (entry display) ms) :: map conv gs'
                                 else (n, b, es) :: map conv ((n', ms) :: gs')
            | [] => [(n, b, es)]
            end.
Proof.
  induction l as [|x r IH]; intros gs n b es.
  - reflexivity.
  - cbn [fold_left push]. destruct (String.eqb n (name x)) eqn:E.
    + rewrite IH. f_equal. apply String.eqb_eq in E. subst n. cbn [group].
      destruct (group r) as [|[n' ms] gs'] eqn:G; cbn.
      * now rewrite String.eqb_refl.
      * destruct (String.eqb (name x) n') eqn:E'.
        -- rewrite E'. cbn. now rewrite <- app_assoc.
        -- rewrite String.eqb_refl. reflexivity.
    + rewrite IH. cbn [rev]. rewrite <- app_assoc. f_equal. cbn [app group]. fold (labelled x).
      destruct (group r) as [|[n' ms] gs'] eqn:G; cbn.
      * now rewrite E.
      * destruct (String.eqb (name x) n') eqn:E'.
        -- apply String.eqb_eq in E'. subst n'. now rewrite E.
        -- now rewrite E.
Qed.

Lemma groups_eq l : rev (fold_left (push display) l []) = map conv (group l).
Proof.
  destruct l as [|x r]; [reflexivity|]. cbn [fold_left push]. rewrite push_fold. cbn [rev app group]. fold (labelled x).
  destruct (group r) as [|[n ms] gs]; [reflexivity|]. destruct (String.eqb (name x) n) eqn:E; [|reflexivity].
  apply String.eqb_eq in E. subst n. reflexivity.
Qed.

Section Group.
Variable kn : string -> nat.
Definition name_before (a b : string) : Prop := front (kn a, a) (kn b, b).

Lemma group_facts l : (forall a, In a l -> sort_key (variant (mval a)) = kn (name a)) ->
  StronglySorted (fun a b => before (sorting sort_key a) (sorting sort_key b)) l ->
  StronglySorted name_before (map fst (group l)) /\
  (forall n, In n (map fst (group l)) <-> exists a, In a l /\ name a = n) /\
  (forall n ms, In (n, ms) (group l) -> ms <> [] /\ ms = filter (fun m => String.eqb (name m) n) l).
Proof.
  intros Hkn Hs. induction Hs as [|x r Hs IH Hf].
  - cbn. split; [constructor|]. split; [|intros ? ? []]. intros n. split; [intros []|intros (a & [] & _)].
  - destruct IH as (S1 & S2 & S3). { intros a Ha. apply Hkn. now right. }
    assert (Hle : forall a, In a r -> name_before (name x) (name a) \/ name x = name a).
    { intros a Ha. rewrite Forall_forall in Hf. specialize (Hf a Ha). apply before_cases in Hf. unfold sorting in Hf. cbn [fst snd] in Hf.
      rewrite (Hkn x (or_introl eq_refl)), (Hkn a (or_intror Ha)) in Hf. destruct Hf as [H|[E _]]; [left; exact H|right; congruence]. }
    cbn [group]. destruct (group r) as [|[n0 ms0] gs] eqn:G.
    + assert (r = []). { destruct r as [|y r']; auto. destruct (proj2 (S2 (name y)) (ex_intro _ y (conj (or_introl eq_refl) eq_refl))). }
      subst r. cbn. split; [repeat constructor|]. split.
      * intros n. split; [intros [<-|[]]; eauto|intros (a & [<-|[]] & <-); auto].
      * intros n ms [E|[]]. injection E as <- <-. rewrite String.eqb_refl. split; [discriminate|reflexivity].
    + cbn [map fst] in S1. inversion S1 as [|? ? S1' S1f]; subst. rewrite Forall_forall in S1f.
      destruct (String.eqb (name x) n0) eqn:E.
      * apply String.eqb_eq in E. subst n0. cbn [map fst]. split; [exact S1|]. split.
        -- intros n. rewrite S2. split; [intros (a & Ha & <-); exists a; cbn; auto|].
           intros (a & [<-|Ha] & <-); [|eauto]. apply S2. now left.
        -- intros n ms [E|Hin].
           ++ injection E as <- <-. split; [discriminate|]. cbn. rewrite String.eqb_refl. f_equal. now apply S3; left.
           ++ destruct (S3 n ms (or_intror Hin)) as [A B]. split; [exact A|]. cbn.
              assert (Hlt : name_before (name x) n). { apply S1f. apply in_map_iff. now exists (n, ms). }
              destruct (String.eqb (name x) n) eqn:E'; [|exact B]. apply String.eqb_eq in E'. subst n. now apply front_irrefl in Hlt.
      * assert (Hne : name x <> n0). { intros Ex. apply String.eqb_eq in Ex. congruence. }
        assert (H0 : name_before (name x) n0).
        { destruct (proj1 (S2 n0) (or_introl eq_refl)) as (a & Ha & Ea). destruct (Hle a Ha) as [H|H]; subst; auto. now destruct Hne. }
        assert (Hall : forall n, In n (n0 :: map fst gs) -> name_before (name x) n).
        { intros n [<-|Hn]; auto. eapply front_trans; [exact H0|]. now apply S1f. }
        cbn [map fst]. split; [|split].
        -- constructor; [exact S1|]. now rewrite Forall_forall.
        -- intros n. split.
           ++ intros [<-|Hn]; [exists x; cbn; auto|]. apply S2 in Hn. destruct Hn as (a & Ha & <-). exists a. cbn. auto.
           ++ intros (a & [<-|Ha] & <-); [now left|]. right. apply S2. eauto.
        -- intros n ms [Ex|Hin].
           ++ injection Ex as <- <-. split; [discriminate|]. cbn. rewrite String.eqb_refl. f_equal. symmetry.
              destruct (filter (fun m => String.eqb (name m) (name x)) r) as [|y ys] eqn:Ef; auto.
              assert (Hy : In y (y :: ys)) by now left. rewrite <- Ef in Hy. apply filter_In in Hy. destruct Hy as [Hy Ey]. apply String.eqb_eq in Ey.
              exfalso. apply (front_irrefl (kn (name x), name x)). apply (Hall (name x)). apply S2. eauto.
           ++ destruct (S3 n ms Hin) as [A B]. split; [exact A|]. cbn.
              destruct (String.eqb (name x) n) eqn:E'; [|exact B]. apply String.eqb_eq in E'. subst n.
              exfalso. apply (front_irrefl (kn (name x), name x)). apply (Hall (name x)). exact (in_map fst _ _ Hin).
Qed.
End Group.

(** ** The text *)

Definition line_of (l : list metric) : line := map (fun g => (fst g, map (fun m => (id_of m, mval m)) (snd g))) (group l).

Lemma entry_text m : numbered [m] -> entry display m = text_entry display (id_of m, mval m).
Proof.
  intros H. unfold entry, text_entry, id_of. cbn [fst snd]. destruct (H m (or_introl eq_refl)) as [->|(t & Ht & ->)]; [reflexivity|].
  now rewrite parse_show.
Qed.

Lemma group_members l n ms m : In (n, ms) (group l) -> In m ms -> In m l.
Proof.
  revert n ms. induction l as [|x r IH]; intros n ms; cbn; [tauto|]. destruct (group r) as [|[n0 ms0] gs] eqn:G.
  - intros [E|[]] H. injection E as <- <-. destruct H as [<-|[]]. auto.
  - destruct (String.eqb (name x) n0).
    + intros [E|Hin] H.
      * injection E as <- <-. destruct H as [<-|H]; auto. right. apply (IH n0 ms0); cbn; auto.
      * right. apply (IH n ms); cbn; auto.
    + intros [E|Hin] H.
      * injection E as <- <-. destruct H as [<-|[]]. auto.
      * right. apply (IH n ms); auto.
Qed.

Lemma text_line l : numbered l -> text_of display l = text display (line_of l).
Proof.
  intros Hn. unfold text_of, text. rewrite groups_eq. f_equal. unfold line_of. rewrite !map_map. apply map_ext_in. intros [n ms] Hin.
  assert (Hms : numbered ms). { intros m Hm. apply Hn. eapply group_members; eauto. }
  unfold group_text, text_group, conv. cbn [fst snd].
  replace (map (entry display) ms) with (map (text_entry display) (map (fun m => (id_of m, mval m)) ms)).
  2: { rewrite map_map. apply map_ext_in. intros m Hm. symmetry. apply entry_text. intros x [<-|[]]. now apply Hms. }
  destruct ms as [|m ms]; [reflexivity|]. cbn [map]. unfold labelled.
  destruct (Hms m (or_introl eq_refl)) as [Et|(t & Ht & Et)].
  - assert (Ei : id_of m = None) by (unfold id_of; now rewrite Et). rewrite Et, Ei. reflexivity.
  - assert (Ei : id_of m = Some t) by (unfold id_of; rewrite Et; now apply parse_show). rewrite Et, Ei. reflexivity.
Qed.

Lemma filter_sorted_kind ms l : one_kind ms -> displayed_list ms l ->
  exists kn, forall a, In a l -> sort_key (variant (mval a)) = kn (name a).
Proof.
  intros Hone (_ & Hin).
  exists (fun n => match find (fun m => String.eqb (name m) n) ms with Some m => sort_key (variant (mval m)) | None => 0 end).
  intros a Ha. apply Hin in Ha. destruct Ha as (m & Hm & Em & Ea). assert (En : name m = name a) by (unfold mkey in Em; congruence).
  destruct (find (fun m => String.eqb (name m) (name a)) ms) as [m'|] eqn:F.
  - apply find_some in F. destruct F as [F1 F2]. apply String.eqb_eq in F2. rewrite Ea. cbn. f_equal. apply Hone; auto. congruence.
  - apply (find_none _ _ F) in Hm. rewrite En, String.eqb_refl in Hm. discriminate.
Qed.

Theorem shown ms out : one_kind ms -> numbered ms -> formats sort_key timestamp op unit display ms out ->
  exists gs, out = text display gs /\ tidy gs /\
    (forall n, In n (map fst gs) <-> exists m, In m ms /\ name m = n /\ timestamp (variant (mval m)) = false) /\
    (forall n es e, In (n, es) gs ->
      (In e es <-> exists m, In m ms /\ name m = n /\
        e = (id_of m, mkValue (variant (mval m)) n (total (variant (mval m)) (recorded (mkey m) ms))))).
Proof.
  intros Hone Hnum H. destruct (formats_inv ms out Hone Hnum H) as (l & Hl & ->).
  destruct (filter_sorted_kind ms l Hone Hl) as (kn & Hkn). destruct Hl as (Hs & Hin).
  set (l' := filter (fun m => negb (timestamp (variant (mval m)))) l).
  assert (Hin' : forall a, In a l' <-> sum_of ms (mkey a) a /\ timestamp (variant (mval a)) = false).
  { intros a. unfold l'. rewrite filter_In, Hin, negb_true_iff. tauto. }
  assert (Hnum' : numbered l').
  { intros a Ha. apply Hin' in Ha. destruct Ha as ((m & Hm & Em & _) & _). unfold mkey in Em. injection Em as _ Et. rewrite <- Et. now apply Hnum. }
  destruct (group_facts kn l') as (G1 & G2 & G3).
  { intros a Ha. apply Hkn. unfold l' in Ha. apply filter_In in Ha. tauto. }
  { now apply sorted_filter. }
  exists (line_of l'). split; [now apply text_line|].
  assert (Hfst : map fst (line_of l') = map fst (group l')) by (unfold line_of; now rewrite map_map).
  split; [split|split].
  - rewrite Hfst. clear - G1. induction G1 as [|n ns Hs IH Hf]; constructor; auto. intros Hn. rewrite Forall_forall in Hf.
    apply Hf in Hn. now apply front_irrefl in Hn.
  - intros n es He. unfold line_of in He. apply in_map_iff in He. destruct He as ([n' ms'] & E & Hg). injection E as -> <-.
    destruct (G3 n ms' Hg) as [Hne Ems]. split; [destruct ms'; [now destruct Hne|discriminate]|]. rewrite map_map. cbn [fst].
    rewrite Ems. eapply (sorted_map id_of) with (lt := fun a b => before (sorting sort_key a) (sorting sort_key b)).
    2: { now apply sorted_filter, sorted_filter. }
    intros a b Ha Hb Hab. apply filter_In in Ha, Hb. destruct Ha as [Ha Ea], Hb as [Hb Eb]. apply String.eqb_eq in Ea, Eb.
    apply before_cases in Hab. unfold sorting in Hab. cbn [fst snd] in Hab. destruct Hab as [Hf|[_ Hf]]; [|exact Hf].
    exfalso. unfold l' in Ha, Hb. apply filter_In in Ha, Hb. destruct Ha as [Ha _], Hb as [Hb _]. rewrite (Hkn a Ha), (Hkn b Hb), Ea, Eb in Hf.
    now apply front_irrefl in Hf.
  - intros n. rewrite Hfst, G2. split.
    + intros (a & Ha & <-). apply Hin' in Ha. destruct Ha as ((m & Hm & Em & Ea) & Ht). exists m. split; [auto|].
      split; [unfold mkey in Em; congruence|]. rewrite Ea in Ht. exact Ht.
    + intros (m & Hm & <- & Ht). set (k := mkey m).
      exists (mkMetric (mkValue (variant (mval m)) (fst k) (total (variant (mval m)) (recorded k ms))) None (labels_of (snd k))).
      split; [|reflexivity]. apply Hin'. split; [|exact Ht]. assert (S : sum_of ms k (mkMetric (mkValue (variant (mval m)) (fst k)
        (total (variant (mval m)) (recorded k ms))) None (labels_of (snd k)))) by (exists m; auto).
      now rewrite (summed_key _ _ _ S).
  - intros n es e He. unfold line_of in He. apply in_map_iff in He. destruct He as ([n' ms'] & E & Hg). injection E as -> <-.
    destruct (G3 n ms' Hg) as [Hne Ems]. rewrite in_map_iff. split.
    + intros (a & <- & Ha). rewrite Ems in Ha. apply filter_In in Ha. destruct Ha as [Ha En]. apply String.eqb_eq in En.
      apply Hin' in Ha. destruct Ha as ((m & Hm & Em & Ea) & _). exists m. split; [auto|]. split; [unfold mkey in Em; congruence|].
      f_equal.
      * unfold id_of. unfold mkey in Em. injection Em as _ ->. reflexivity.
      * rewrite Em. transitivity (mkValue (variant (mval m)) (fst (mkey a)) (total (variant (mval m)) (recorded (mkey a) ms))); [now rewrite Ea at 1|].
        now rewrite <- En.
    + intros (m & Hm & En & ->). set (k := mkey m).
      set (a := mkMetric (mkValue (variant (mval m)) (fst k) (total (variant (mval m)) (recorded k ms))) None (labels_of (snd k))).
      assert (S : sum_of ms k a) by (exists m; auto). pose proof (summed_key _ _ _ S) as Ek.
      exists a. split.
      * f_equal; [|now rewrite <- En]. unfold id_of. assert (Et : task_id a = task_id m) by exact (f_equal snd Ek). now rewrite Et.
      * rewrite Ems. apply filter_In. split; [|apply String.eqb_eq; cbn; exact En]. apply Hin'. split; [now rewrite Ek|].
        (* the group exists, so the name is not that of a timestamp *)
        assert (Hn : In n (map fst (group l'))). { apply in_map_iff. now exists (n, ms'). }
        apply G2 in Hn. destruct Hn as (b & Hb & Eb). apply Hin' in Hb. destruct Hb as ((m' & Hm' & Em' & Eb') & Ht).
        rewrite Eb' in Ht. cbn in *. rewrite <- Ht. f_equal. apply Hone; auto. unfold mkey in Em'. congruence.
Qed.

(** ** There is always a text, and only one *)

Lemma before_total a b : before a b \/ a = b \/ before b a.
Proof.
  rewrite !before_cases. destruct a as [[k n] t], b as [[k' n'] t']. unfold front. cbn [fst snd].
  destruct (Nat.lt_trichotomy k k') as [H|[->|H]]; [auto| |right; right; auto].
  destruct (String.compare n n') eqn:E.
  - apply String.compare_eq_iff in E. subst n'. destruct t as [x|], t' as [y|]; cbn; auto.
    destruct (N.lt_trichotomy x y) as [H|[->|H]]; auto.
  - auto.
  - right. right. left. right. split; [reflexivity|]. rewrite String.compare_antisym, E. reflexivity.
Qed.

Lemma sort_exists (l : list metric) : exists l', Permutation l l' /\ sorted_for_display sort_key l'.
Proof.
  induction l as [|x l IHl]; [exists []; split; constructor|]. destruct IHl as (l' & Hp & Hs).
  assert (H : exists l'', Permutation (x :: l') l'' /\ sorted_for_display sort_key l'').
  2: { destruct H as (l'' & Hp' & Hs'). exists l''. split; [|exact Hs']. rewrite <- Hp'. now constructor. }
  clear Hp. induction Hs as [|y l' Hs IH Hf]; [exists [x]; repeat constructor|].
  assert (T : forall a b c : metric, (before (sorting sort_key a) (sorting sort_key b) \/ sorting sort_key a = sorting sort_key b) ->
    (before (sorting sort_key b) (sorting sort_key c) \/ sorting sort_key b = sorting sort_key c) ->
    before (sorting sort_key a) (sorting sort_key c) \/ sorting sort_key a = sorting sort_key c).
  { intros a b c [H1|H1] [H2|H2]; [left; eapply before_trans; eauto|left; now rewrite <- H2|left; now rewrite H1|right; congruence]. }
  assert (C : (before (sorting sort_key x) (sorting sort_key y) \/ sorting sort_key x = sorting sort_key y) \/ before (sorting sort_key y) (sorting sort_key x)).
  { destruct (before_total (sorting sort_key x) (sorting sort_key y)) as [H|[H|H]]; auto. }
  destruct C as [C|C].
  - exists (x :: y :: l'). split; [reflexivity|]. constructor; [constructor; auto|]. rewrite Forall_forall in *. intros z [<-|Hz]; auto.
    eapply T; [exact C|]. now apply Hf.
  - destruct IH as (l'' & Hp & Hs'). exists (y :: l''). split; [rewrite perm_swap; now constructor|]. constructor; auto.
    rewrite Forall_forall in *. intros z Hz. eapply Permutation_in in Hz; [|symmetry; exact Hp]. destruct Hz as [<-|Hz]; auto.
Qed.

Lemma formats_exists ms : one_kind ms -> exists out, formats sort_key timestamp op unit display ms out.
Proof.
  intros H. destruct (aggregate_spec ms H) as (mp & E & _). destruct (sort_exists (map snd mp)) as (l & Hp & Hs).
  eexists. exists (map snd mp), l. split; [exact E|]. split; [exact Hp|]. split; [exact Hs|reflexivity].
Qed.

Lemma total_perm v l l' : (forall x y z, op v (op v x y) z = op v (op v x z) y) -> Permutation l l' -> total v l = total v l'.
Proof.
  intros Hc Hp. unfold ShowSpec.total. generalize (unit v). induction Hp; intros u; cbn; auto.
  - now rewrite Hc.
  - now rewrite IHHp1, IHHp2.
Qed.

Lemma recorded_perm k ms ms' : Permutation ms ms' -> Permutation (recorded k ms) (recorded k ms').
Proof.
  intros H. unfold recorded. apply Permutation_map. induction H; cbn; auto.
  - destruct (key_eqb k (mkey x)); auto.
  - destruct (key_eqb k (mkey x)), (key_eqb k (mkey y)); auto. constructor.
  - etransitivity; eauto.
Qed.

Theorem formats_unique ms ms' out out' :
  (forall v x y z, op v (op v x y) z = op v (op v x z) y) -> one_kind ms -> numbered ms -> Permutation ms ms' ->
  formats sort_key timestamp op unit display ms out -> formats sort_key timestamp op unit display ms' out' -> out = out'.
Proof.
  intros Hc Hone Hnum Hp H H'.
  assert (Hone' : one_kind ms'). { intros a b Ha Hb. apply Hone; eapply Permutation_in; try (symmetry; exact Hp); auto. }
  assert (Hnum' : numbered ms'). { intros a Ha. apply Hnum. eapply Permutation_in; [symmetry; exact Hp|auto]. }
  destruct (formats_inv ms out Hone Hnum H) as (l & (Hs & Hin) & ->). destruct (formats_inv ms' out' Hone' Hnum' H') as (l' & (Hs' & Hin') & ->).
  assert (l = l') as ->; [|reflexivity].
  apply (sorted_unique (fun a b => before (sorting sort_key a) (sorting sort_key b))); auto.
  - intros a b c. apply before_trans.
  - intros a. apply before_irrefl.
  - assert (X : forall m1 m2 a, Permutation m1 m2 -> sum_of m1 (mkey a) a -> sum_of m2 (mkey a) a).
    { intros m1 m2 a P (m & Hm & Em & Ea). exists m. split; [eapply Permutation_in; eauto|]. split; [auto|].
      rewrite <- (total_perm (variant (mval m)) (recorded (mkey a) m1) (recorded (mkey a) m2)); auto. now apply recorded_perm. }
    intros a. rewrite Hin, Hin'. split; apply X; auto. now symmetry.
Qed.

(** ** Tasks *)

Lemma annotate_task t ms m : unlabelled ms -> In m (annotate t ms) -> task_id m = Some (show t).
Proof.
  intros H Hm. unfold annotate in Hm. apply in_map_iff in Hm. destruct Hm as (m0 & <- & Hm0). apply H in Hm0. unfold task_id. cbn.
  induction (mlabels m0) as [|[n v] ls IH]; cbn in *; [reflexivity|].
  destruct (String.eqb n task_label) eqn:E; [apply String.eqb_eq in E; subst; tauto|]. apply IH. tauto.
Qed.

Lemma unlabelled_task ms m : unlabelled ms -> In m ms -> task_id m = None.
Proof.
  intros H Hm. apply H in Hm. unfold task_id. induction (mlabels m) as [|[n v] ls IH]; cbn in *; [reflexivity|].
  destruct (String.eqb n task_label) eqn:E; [apply String.eqb_eq in E; subst; tauto|]. apply IH. tauto.
Qed.

Lemma per_task_in tasks : forall t m, unlabelled (List.concat tasks) -> In m (per_task_from t tasks) ->
  exists i ms m0, nth_error tasks i = Some ms /\ In m0 ms /\ mval m = mval m0 /\ task_id m = Some (show (t + N.of_nat i)).
Proof.
  induction tasks as [|ms tasks IH]; intros t m Hu Hm; [destruct Hm|].
  assert (Hu1 : unlabelled ms). { intros x Hx. apply Hu. cbn. apply in_app_iff. auto. }
  assert (Hu2 : unlabelled (List.concat tasks)). { intros x Hx. apply Hu. cbn. apply in_app_iff. auto. }
  cbn in Hm. apply in_app_iff in Hm. destruct Hm as [Hm|Hm].
  - pose proof (annotate_task t ms m Hu1 Hm) as Ht. unfold annotate in Hm. apply in_map_iff in Hm. destruct Hm as (m0 & Em & Hm0).
    exists 0, ms, m0. split; [reflexivity|]. split; [auto|]. split; [now rewrite <- Em|]. rewrite Ht. do 2 f_equal. lia.
  - destruct (IH (t + 1)%N m Hu2 Hm) as (i & ms' & m0 & E & Hin & Ev & Et). exists (S i), ms', m0. split; [exact E|]. split; [auto|]. split; [auto|].
    rewrite Et. do 2 f_equal. lia.
Qed.

Lemma per_task_has tasks : forall t i ms m0, nth_error tasks i = Some ms -> In m0 ms -> unlabelled (List.concat tasks) ->
  exists m, In m (per_task_from t tasks) /\ mval m = mval m0 /\ task_id m = Some (show (t + N.of_nat i)).
Proof.
  induction tasks as [|ms tasks IH]; intros t [|i] ms0 m0 E Hin Hu; try discriminate; cbn in E.
  - injection E as ->. exists (mkMetric (mval m0) (mpartition m0) (mlabels m0 ++ [(task_label, show t)])).
    assert (Ha : In (mkMetric (mval m0) (mpartition m0) (mlabels m0 ++ [(task_label, show t)])) (annotate t ms0)).
    { unfold annotate. apply in_map_iff. eauto. }
    split; [cbn; apply in_app_iff; auto|]. split; [reflexivity|]. rewrite (annotate_task t ms0); auto.
    + do 2 f_equal. lia.
    + intros x Hx. apply Hu. cbn. apply in_app_iff. auto.
  - destruct (IH (t + 1)%N i ms0 m0 E Hin) as (m & Hm & Ev & Et).
    + intros x Hx. apply Hu. cbn. apply in_app_iff. auto.
    + exists m. split; [cbn; apply in_app_iff; auto|]. split; [auto|]. rewrite Et. do 2 f_equal. lia.
Qed.

Lemma recorded_app k a b : recorded k (a ++ b) = recorded k a ++ recorded k b.
Proof. unfold recorded. now rewrite filter_app, map_app. Qed.

Lemma recorded_annotate n t t' ms : (t < 2 ^ 64)%N -> (t' < 2 ^ 64)%N -> unlabelled ms ->
  recorded (n, Some (show t')) (annotate t ms) = if (t =? t')%N then amounts n ms else [].
Proof.
  intros Ht Ht' Hu. unfold recorded, amounts.
  assert (X : forall m, In m ms -> key_eqb (n, Some (show t')) (mkey (mkMetric (mval m) (mpartition m) (mlabels m ++ [(task_label, show t)])))
    = (String.eqb (name m) n && (t =? t')%N)%bool).
  { intros m Hm. unfold mkey. rewrite (annotate_task t ms) by (auto; unfold annotate; apply in_map_iff; eauto). unfold key_eqb. cbn [fst snd].
    rewrite String.eqb_sym. change (name (mkMetric (mval m) (mpartition m) (mlabels m ++ [(task_label, show t)]))) with (name m). f_equal.
    destruct (N.eqb_spec t t') as [->|Hne]; [apply String.eqb_refl|]. apply String.eqb_neq. intros E. apply Hne. symmetry. now apply show_inj. }
  unfold annotate. clear Hu. induction ms as [|m ms IH]; cbn [map filter]; [now destruct (t =? t')%N|].
  rewrite (X m (or_introl eq_refl)). assert (IH' := IH (fun x Hx => X x (or_intror Hx))). clear IH X.
  destruct (String.eqb (name m) n), (t =? t')%N; cbn [andb map]; auto. cbn. now f_equal.
Qed.

Lemma recorded_per_task n tasks : forall t i, unlabelled (List.concat tasks) -> (t + N.of_nat (List.length tasks) <= 2 ^ 64)%N ->
  i < List.length tasks ->
  recorded (n, Some (show (t + N.of_nat i))) (per_task_from t tasks) = amounts n (nth i tasks []).
Proof.
  assert (Z : forall tasks t s, unlabelled (List.concat tasks) -> (t + N.of_nat (List.length tasks) <= 2 ^ 64)%N -> (s < t)%N ->
    recorded (n, Some (show s)) (per_task_from t tasks) = []).
  { clear tasks. induction tasks as [|ms tasks IH]; intros t s Hu Hl Hs; [reflexivity|]. cbn [per_task_from List.length] in *.
    rewrite recorded_app, recorded_annotate; try lia.
    - rewrite (proj2 (N.eqb_neq t s)) by lia. cbn. apply IH; try lia. intros x Hx. apply Hu. cbn. apply in_app_iff. auto.
    - intros x Hx. apply Hu. cbn. apply in_app_iff. auto. }
  induction tasks as [|ms tasks IH]; intros t i Hu Hl Hi; cbn [List.length per_task_from] in *; [lia|].
  assert (Hu1 : unlabelled ms). { intros x Hx. apply Hu. cbn. apply in_app_iff. auto. }
  assert (Hu2 : unlabelled (List.concat tasks)). { intros x Hx. apply Hu. cbn. apply in_app_iff. auto. }
  rewrite recorded_app, recorded_annotate by (auto; lia). destruct i as [|i].
  - rewrite (proj2 (N.eqb_eq t (t + N.of_nat 0))) by lia. cbn [nth]. rewrite Z; auto; try lia. apply app_nil_r.
  - rewrite (proj2 (N.eqb_neq t (t + N.of_nat (S i)))) by lia. cbn [nth app]. replace (t + N.of_nat (S i))%N with (t + 1 + N.of_nat i)%N by lia.
    apply IH; auto; lia.
Qed.

Lemma per_task_numbered tasks : unlabelled (List.concat tasks) -> (N.of_nat (List.length tasks) <= 2 ^ 64)%N -> numbered (per_task tasks).
Proof.
  intros Hu Hl m Hm. destruct (per_task_in tasks 0 m Hu Hm) as (i & ms & m0 & E & _ & _ & Et). right. exists (0 + N.of_nat i)%N.
  split; [|exact Et]. assert (i < List.length tasks) by (apply nth_error_Some; congruence). lia.
Qed.

Lemma per_task_one_kind tasks : unlabelled (List.concat tasks) -> one_kind (List.concat tasks) -> one_kind (per_task tasks).
Proof.
  intros Hu Hk a b Ha Hb En. destruct (per_task_in tasks 0 a Hu Ha) as (i & ms & m & E & Hm & Ev & _).
  destruct (per_task_in tasks 0 b Hu Hb) as (i' & ms' & m' & E' & Hm' & Ev' & _). rewrite Ev, Ev'. apply Hk.
  - apply in_concat. exists ms. split; auto. eapply nth_error_In; eauto.
  - apply in_concat. exists ms'. split; auto. eapply nth_error_In; eauto.
  - unfold name in *. congruence.
Qed.

Lemma recorded_aggregated n ms : unlabelled ms -> recorded (n, None) ms = amounts n ms.
Proof.
  intros Hu. unfold recorded, amounts. f_equal. induction ms as [|m ms IH]; cbn; auto.
  assert (E : key_eqb (n, None) (mkey m) = String.eqb (name m) n).
  { unfold key_eqb, mkey. cbn. rewrite (unlabelled_task (m :: ms) m Hu (or_introl eq_refl)), String.eqb_sym. apply andb_true_r. }
  rewrite E, IH; auto. intros x Hx. apply Hu. now right.
Qed.

Lemma header_per_task store tasks : forall t ms, header_from store t ms ->
  (forall i, store (t + N.of_nat i)%N = nth_error tasks i) -> ms = per_task_from t tasks.
Proof.
  intros t ms H. revert tasks. induction H as [t E|t ms rest E H IH]; intros tasks Hs; pose proof (Hs 0) as H0; rewrite N.add_0_r, E in H0.
  - destruct tasks; [reflexivity|discriminate].
  - destruct tasks as [|ms' tasks]; [discriminate|]. cbn in H0. injection H0 as <-. cbn. f_equal. apply IH. intros i.
    etransitivity; [|exact (Hs (S i))]. f_equal. lia.
Qed.
Lemma header_exists tasks : forall t store, (forall i, store (t + N.of_nat i)%N = nth_error tasks i) ->
  header_from store t (per_task_from t tasks).
Proof.
  induction tasks as [|ms tasks IH]; intros t store Hs; pose proof (Hs 0) as H0; rewrite N.add_0_r in H0; cbn in H0.
  - now constructor.
  - cbn. constructor; [exact H0|]. apply IH. intros i. etransitivity; [|exact (Hs (S i))]. f_equal. lia.
Qed.

Lemma wrapper_once wrapped local : (forall m, In m local -> existsb (fun w => same_metric w m) wrapped = true) ->
  wrapper_metrics wrapped (Some local) = wrapped.
Proof.
  intros H. cbn. rewrite <- (app_nil_r wrapped) at 2. f_equal. induction local as [|m local IH]; cbn; auto.
  rewrite (H m (or_introl eq_refl)). cbn. apply IH. intros x Hx. apply H. now right.
Qed.
End Proofs.
