(** Proofs about executions: the rows of a deployed plan are the rows of the plan it was made from. *)
From Verif Require Import Base NetModel NetSpec NetProofs CiuModel CiuSpec CiuProofs EventsModel JoinModel JoinSpec
  JoinProofs PlannerModel PlannerSpec PlannerProofs ExecModel ExecSpec.

(** * Collections of rows *)

Section Rows.
Context {row : Type}.
Notation tree := (tree row).
Notation table := (nat -> nat -> list row).

Lemma perm_additive : additive (@Permutation row).
Proof. split; intros; try (symmetry; assumption); auto; [etransitivity; eauto|now apply Permutation_app]. Qed.

Section Additive.
Variable E : list row -> list row -> Prop.
Hypothesis HE : additive E.

Lemma add_refl l : E l l.
Proof using HE. now apply (add_perm E HE). Qed.

Lemma add_flat_map {A} (f g : A -> list row) l : (forall x, In x l -> E (f x) (g x)) -> E (flat_map f l) (flat_map g l).
Proof using HE.
  induction l as [|x l IH]; intros H; cbn; [apply add_refl|].
  apply (add_app E HE); [apply H; now left|apply IH; intros; apply H; now right].
Qed.

Lemma add_consumer n P (f g : table) : (forall i p, i < n -> p < P -> E (f i p) (g i p)) ->
  E (consumer_rows n P f) (consumer_rows n P g).
Proof using HE.
  intros H. unfold consumer_rows. apply add_flat_map. intros i Hi. apply in_seq in Hi. apply add_flat_map.
  intros p Hp. apply in_seq in Hp. apply H; lia.
Qed.
End Additive.

(** The partitions of all tasks in a row. *)
Definition flat (P : nat) (f : table) (m : nat) : list row := f (m / P) (m mod P).

Lemma consumer_flat n P (f : table) : consumer_rows n P f = flat_map (flat P f) (seq 0 (n * P)).
Proof.
  destruct (Nat.eq_dec P 0) as [->|HP].
  - rewrite Nat.mul_0_r. cbn. unfold consumer_rows. cbn. apply flat_map_nil.
  - unfold consumer_rows, flat. rewrite (seq_divmod P n f) by lia. reflexivity.
Qed.

Lemma flat_index n P m : m < n * P -> m / P < n /\ m mod P < P /\ P * (m / P) + m mod P = m.
Proof.
  intros H. assert (HP : P <> 0) by nia. split; [apply Nat.div_lt_upper_bound; lia|].
  split; [now apply Nat.mod_upper_bound|]. symmetry. now apply Nat.div_mod.
Qed.

Lemma one_task P (f : table) : consumer_rows 1 P f = flat_map (f 0) (seq 0 P).
Proof. unfold consumer_rows. cbn. now rewrite app_nil_r. Qed.

Definition located (D : spread row) (n P : nat) (f : table) : Prop :=
  match D with
  | Anyhow => True
  | Hashed h m => P = m /\ 0 < m /\ forall i p, i < n -> p < P -> forall r, In r (f i p) -> h r mod (P * n) = P * i + p
  end.

Lemma located_flat h m n P f : located (Hashed h m) n P f -> forall x, x < n * P -> forall r, In r (flat P f x) ->
  h r mod (n * P) = x.
Proof.
  intros (-> & Hm & H) x Hx r Hr. destruct (flat_index n m x Hx) as (H1 & H2 & H3).
  rewrite (Nat.mul_comm n m), (H _ _ H1 H2 r Hr). exact H3.
Qed.

(** ** Operators *)

Lemma distributive_flat F (E E' : list row -> list row -> Prop) (HE' : additive E') : distributive F E E' ->
  forall {A} (g : A -> list row) l, E' (flat_map (fun x => F (g x)) l) (F (flat_map g l)).
Proof.
  intros (_ & Hn & Ha) A g l. induction l as [|x l IH]; cbn; [now apply (add_sym E' HE')|].
  apply (add_trans E' HE') with (F (g x) ++ F (flat_map g l)).
  - apply (add_app E' HE'); [now apply add_refl|exact IH].
  - apply (add_sym E' HE'). apply Ha.
Qed.

Lemma keyed_flat h F (E E' : list row -> list row -> Prop) (HE' : additive E') : keyed h F E E' ->
  forall {A} (g : A -> list row) l, NoDup l ->
  (forall x y a b, In x l -> In y l -> x <> y -> In a (g x) -> In b (g y) -> h a <> h b) ->
  E' (flat_map (fun x => F (g x)) l) (F (flat_map g l)).
Proof.
  intros (_ & Hn & Ha) A g l Hd. induction Hd as [|x l Hx Hd IH]; intros Hk; cbn; [now apply (add_sym E' HE')|].
  apply (add_trans E' HE') with (F (g x) ++ F (flat_map g l)).
  - apply (add_app E' HE'); [now apply add_refl|]. apply IH. intros a b u v Ha' Hb'. apply Hk; now right.
  - apply (add_sym E' HE'). apply Ha. intros a b Ha' Hb'. apply in_flat_map in Hb' as (y & Hy & Hb').
    eapply Hk; [now left|right; exact Hy| |exact Ha'|exact Hb']. congruence.
Qed.

(** An operator on every partition. *)
Lemma op_rows F (E E' : list row -> list row -> Prop) n P (g f : table) : additive E -> respects F E E' -> additive E' ->
  (forall i p, i < n -> p < P -> exists l, Permutation l (g i p) /\ Permutation (f i p) (F l)) ->
  E' (consumer_rows n P f) (flat_map (fun x => F (flat P g x)) (seq 0 (n * P))).
Proof.
  intros HE HF HE' H. rewrite consumer_flat. apply add_flat_map; [exact HE'|]. intros x Hx. apply in_seq in Hx.
  destruct (flat_index n P x ltac:(lia)) as (H1 & H2 & _). destruct (H _ _ H1 H2) as (l & Hl & Hf).
  apply (add_trans E' HE') with (F l); [now apply (add_perm E' HE')|]. apply HF. now apply (add_perm E HE).
Qed.

Lemma op_located D D' F n P (g f : table) : carries D D' F -> located D n P g ->
  (forall i p, i < n -> p < P -> exists l, Permutation l (g i p) /\ Permutation (f i p) (F l)) ->
  located D' n P f.
Proof.
  destruct D' as [|h' n']; [intros; exact Logic.I|]. destruct D as [|h k]; [intros []|].
  intros (-> & Hc) (-> & Hk & Hg) H. split; [reflexivity|]. split; [exact Hk|]. intros i p Hi Hp r Hr.
  destruct (H i p Hi Hp) as (l & Hl & Hf). apply (Permutation_in _ Hf) in Hr. apply Hc in Hr as (r0 & Hr0 & ->).
  apply Hg; auto. eapply Permutation_in; eauto.
Qed.

(** ** Repartitioning inside a task *)

Lemma other_yields n (g : nat -> list row) : yields (SOther n g) g.
Proof. intros i Hi. cbn [parts exec] in *. destruct (Nat.ltb_spec i n); [reflexivity|lia]. Qed.

Lemma indexed_snd {A} (l : list A) : map snd (indexed l) = l.
Proof.
  unfold indexed. generalize 0. induction l as [|x l IH]; intros s; cbn; [reflexivity|]. now rewrite IH.
Qed.

Lemma round_robin_rows n m (g : nat -> list row) (f : nat -> list row) : 0 < n ->
  (forall p, p < n -> exists rows, exec (SRepart (RoundRobin n) (SOther m g)) p = Ok rows /\ Permutation (f p) rows) ->
  Permutation (flat_map f (seq 0 n)) (flat_map g (seq 0 m)).
Proof.
  intros Hn H.
  set (ins := map g (seq 0 m)).
  set (out := fun p => flat_map (fun '(j, rows) =>
                     map snd (filter (fun '(k, _) => (j * n / List.length ins + k) mod n =? p) (indexed rows)))
                   (indexed ins)).
  assert (Hout : forall p, p < n -> Permutation (f p) (out p)).
  { intros p Hp. destruct (H p Hp) as (rows & He & Hf). cbn [exec parts] in He.
    pose proof (exec_all (SOther m g) g (other_yields m g)) as Ha. cbn [exec parts] in Ha. rewrite Ha in He. cbn [bind] in He.
    destruct (Nat.ltb_spec p n); [|lia]. injection He as <-. exact Hf. }
  rewrite (flat_map_perm_ext f out) by (intros p Hp; apply in_seq in Hp; apply Hout; lia).
  unfold out. rewrite flat_map_swap.
  transitivity (flat_map (fun x => snd x) (indexed ins)).
  - apply flat_map_perm_ext. intros [j rows] _. cbn [snd].
    rewrite <- map_flat_map. transitivity (map snd (indexed rows)); [|now rewrite indexed_snd]. apply Permutation_map.
    assert (Ef : forall p : nat, filter (fun '(k, _) => (j * n / List.length ins + k) mod n =? p) (indexed rows) =
      filter (fun x => (fun y => (j * n / List.length ins + fst y) mod n) x =? p) (indexed rows)).
    { intros p. apply filter_ext. now intros [k r]. }
    rewrite (flat_map_ext _ _ Ef). apply (filter_classes_perm (fun y => (j * n / List.length ins + fst y) mod n)).
    intros x _. apply Nat.mod_upper_bound. lia.
  - apply Permutation_refl'. rewrite flat_map_concat_map, indexed_snd. unfold ins. now rewrite concat_map_flat_map.
Qed.

Lemma hash_rows h n m (g : nat -> list row) (f : nat -> list row) :
  (forall p, p < n -> exists rows, exec (SRepart (HashP h n) (SOther m g)) p = Ok rows /\ Permutation (f p) rows) ->
  forall p, p < n -> Permutation (f p) (filter (fun r => h r mod n =? p) (flat_map g (seq 0 m))).
Proof.
  intros H p Hp. destruct (H p Hp) as (rows & He & Hf).
  rewrite (exec_hash h n (SOther m g) g p (other_yields m g) Hp) in He. injection He as <-. exact Hf.
Qed.

Lemma hash_total h n m (g : nat -> list row) (f : nat -> list row) : 0 < n ->
  (forall p, p < n -> Permutation (f p) (filter (fun r => h r mod n =? p) (flat_map g (seq 0 m)))) ->
  Permutation (flat_map f (seq 0 n)) (flat_map g (seq 0 m)).
Proof.
  intros Hn H. rewrite (flat_map_perm_ext f _ (seq 0 n)) by (intros p Hp; apply in_seq in Hp; apply H; lia).
  apply (filter_classes_perm (fun r => h r mod n)). intros x _. apply Nat.mod_upper_bound. lia.
Qed.

(** ** Unions *)

Lemma seq_app_split a b : seq 0 (a + b) = seq 0 a ++ map (fun p => a + p) (seq 0 b).
Proof. rewrite seq_app. cbn. now rewrite (seq_shift_map a b). Qed.

Lemma union_rows (f : nat -> list row) (ps : list nat) : forall gs : list (nat -> list row), List.length gs = List.length ps ->
  (forall c g p, nth_error gs c = Some g -> p < nth c ps 0 -> Permutation (f (list_sum (firstn c ps) + p)) (g p)) ->
  Permutation (flat_map f (seq 0 (list_sum ps))) (flat_map (fun '(g, P) => flat_map g (seq 0 P)) (combine gs ps)).
Proof.
  revert f. induction ps as [|P ps IH]; intros f [|g gs] L H; try discriminate; cbn [list_sum fold_right combine flat_map].
  - reflexivity.
  - change (fold_right Init.Nat.add 0 ps) with (list_sum ps). rewrite seq_app_split, flat_map_app, flat_map_map.
    apply Permutation_app.
    + apply flat_map_perm_ext. intros p Hp. apply in_seq in Hp. apply (H 0 g p); [reflexivity|cbn; lia].
    + apply (IH (fun p => f (P + p))); [cbn in L; lia|]. intros c g' p Hg Hp.
      pose proof (H (S c) g' p Hg Hp) as H'. cbn [firstn list_sum fold_right] in H'.
      change (fold_right Init.Nat.add 0 (firstn c ps)) with (list_sum (firstn c ps)) in H'.
      now rewrite Nat.add_assoc.
Qed.

(** ** Joins *)

Lemma class_flat h m n P (f : table) : located (Hashed h m) n P f -> forall x, x < n * P ->
  Permutation (flat P f x) (class h (n * P) x (consumer_rows n P f)).
Proof.
  intros Hl x Hx. rewrite consumer_flat. unfold class. rewrite filter_flat_map.
  assert (G : forall k, k <= n * P ->
    flat_map (fun y => filter (fun r => h r mod (n * P) =? x) (flat P f y)) (seq 0 k) =
    if x <? k then flat P f x else []).
  { induction k as [|k IH]; intros Hk; [reflexivity|]. rewrite seq_S, flat_map_app, IH by lia. cbn [flat_map plus].
    rewrite app_nil_r. destruct (Nat.eq_dec k x) as [->|Hne].
    - rewrite Nat.ltb_irrefl. destruct (Nat.ltb_spec x (S x)); [|lia]. cbn.
      assert (Ha : forall r, In r (flat P f x) -> h r mod (n * P) = x) by (intros r Hr; eapply located_flat; eauto).
      revert Ha. generalize (flat P f x). induction l as [|r l IHl]; intros Ha; cbn; [reflexivity|].
      rewrite (Ha r (or_introl eq_refl)), Nat.eqb_refl, IHl; [reflexivity|intros; apply Ha; now right].
    - assert (filter (fun r => h r mod (n * P) =? x) (flat P f k) = []) as ->.
      { destruct (filter _ _) as [|r l] eqn:Ef; [reflexivity|]. exfalso.
        assert (Hr : In r (filter (fun r => h r mod (n * P) =? x) (flat P f k))) by (rewrite Ef; now left).
        apply filter_In in Hr as [Hr1 Hr2]. apply Nat.eqb_eq in Hr2.
        rewrite (located_flat h m n P f Hl k ltac:(lia) r Hr1) in Hr2. lia. }
      rewrite app_nil_r. destruct (Nat.ltb_spec x k), (Nat.ltb_spec x (S k)); try reflexivity; lia. }
  rewrite G by lia. destruct (Nat.ltb_spec x (n * P)); [reflexivity|lia].
Qed.

End Rows.

(** * Deployed plans *)

Section Sound.
Context {row : Type}.
Notation tree := (tree row).
Notation table := (nat -> nat -> list row).
Variable cfg : settings row.
Variable most : nat.
Variable pr : bool.
Let Q := within_limits cfg most.

Definition red (t : tree) : tree := if pr then reduce_shuffles t else t.

Lemma red_node k cs : red (Node k cs) = Node k (map red cs).
Proof. unfold red. destruct pr; [reflexivity|]. now rewrite map_id. Qed.
Lemma red_ciu w m cs : red (Ciu w m cs) = Ciu w m (map red cs).
Proof. unfold red. destruct pr; [reflexivity|]. now rewrite map_id. Qed.
Lemma red_tparts t : tparts (red t) = tparts t.
Proof.
  unfold red. destruct pr; [|reflexivity]. induction t as [k cs IH|w m cs IH|b part q num tasks i IH] using tree_ind'.
  - assert (E : map tparts (map reduce_shuffles cs) = map tparts cs).
    { rewrite map_map. apply map_ext_in. now apply Forall_forall. }
    cbn [reduce_shuffles tparts]. rewrite E. reflexivity.
  - assert (E : map tparts (map reduce_shuffles cs) = map tparts cs).
    { rewrite map_map. apply map_ext_in. now apply Forall_forall. }
    cbn [reduce_shuffles tparts]. rewrite E. reflexivity.
  - destruct (reduce_net b part q num tasks i) as [->|(o & ->)]; reflexivity.
Qed.
Lemma red_parts cs : map tparts (map red cs) = map tparts cs.
Proof. rewrite map_map. apply map_ext. exact red_tparts. Qed.

Lemma runs_node rem k (cs : list tree) n (f : table) :
  runs rem (Node k cs) n f <->
  exists fs, Forall2 (fun c g => runs rem c n g) cs fs /\ node_runs rem k (map tparts cs) n fs f.
Proof.
  cbn [runs]. split; intros (fs & H1 & H2); exists fs; (split; [|exact H2]); now apply Forall2_map_l in H1 || apply Forall2_map_l.
Qed.

Lemma runs_ciu rem w m (cs : list tree) n (f : table) :
  runs rem (Ciu w m cs) n f <->
  exists fs, (List.length fs = List.length cs /\
    forall i c g, nth_error cs i = Some c -> nth_error fs i = Some g ->
      runs rem c (nth i (map_task_counts (List.length cs) m) 0) g) /\
    forall i p, i < n -> p < tparts (Ciu w m cs) -> exists rows,
      ciu_execute (mkCiu (tparts (Ciu w m cs)) (isolated_children cs fs) w m) (mkCtx i n) p = Ok rows /\
      Permutation (f i p) rows.
Proof.
  split; intros (fs & H1 & H2); exists fs; (split; [|exact H2]).
  - exact (proj1 (combined_Forall2 (runs rem) (fun P d => P d) cs _ fs (map_task_counts_length _ _)) H1).
  - exact (proj2 (combined_Forall2 (runs rem) (fun P d => P d) cs _ fs (map_task_counts_length _ _)) H1).
Qed.

(** ** Typing facts *)

Lemma typed_additive (p : tree) E D : typed pr p E D -> additive E.
Proof. induction 1; auto using perm_additive. Qed.

Lemma typed_not_bcast (p : tree) E D : typed pr p E D -> is_bcast p = false.
Proof. induction 1; auto. Qed.

Lemma typed_reduces (o : op row) cs E D : typed pr (Node (KOp o) cs) E D -> reduces pr o E.
Proof.
  intros H. remember (Node (KOp o) cs) as t eqn:Et. induction H; try discriminate; try (injection Et as -> _; assumption).
  specialize (IHtyped Et). destruct o as [| |[]| | |]; auto. cbn in *. intros Hpr l. auto.
Qed.

Lemma typed_coalesce_inv spm fetch (c : tree) E D : typed pr (Node (KCoalesce spm fetch) [c]) E D ->
  fetch = None /\ is_round_robin c = false /\ exists E0 D0, typed pr c E0 D0 /\ additive E0 /\ forall a b, E0 a b -> E a b.
Proof.
  intros H. remember (Node (KCoalesce spm fetch) [c]) as t eqn:Et. induction H; try discriminate.
  - injection Et as -> <- ->. split; [reflexivity|]. split; [assumption|]. exists E, D.
    split; [assumption|]. split; [eapply typed_additive; eauto|auto].
  - destruct (IHtyped Et) as (-> & Hr & E0 & D0 & Ht & Ha & Hi). split; [reflexivity|]. split; [exact Hr|].
    exists E0, D0. repeat split; auto; apply Ha.
Qed.

(** ** Invariants of the descent *)

Definition inv (head rem : bool) (s n : nat) (p : tree) : Prop :=
  1 <= s <= most /\ (forall k, In k (announced cfg p) -> s <= k) /\
  (rem = false -> n = 1) /\ (rem = true -> n = s) /\ (head = false -> n = s) /\ (head = true -> n = 1).

Definition cinv (below head rem : bool) (s n : nat) (c : tree) : Prop :=
  (cut below c = None -> inv head rem s n c) /\ 1 <= n /\ (rem = false -> n = 1) /\
  (cut below c = Some BCoalesce -> n = 1).

Lemma inv_pos head rem s n p : inv head rem s n p -> 1 <= n.
Proof. intros (H & _ & _ & _ & H1 & H2). destruct head; [rewrite (H2 eq_refl)|rewrite (H1 eq_refl)]; lia. Qed.

Lemma inv_one head rem s n p : inv head rem s n p ->
  head = true \/ most = 1 \/ In 1 (announced cfg p) -> n = 1.
Proof.
  intros (H & Ha & _ & _ & H1 & H2) Hc. destruct head; [auto|]. rewrite (H1 eq_refl).
  destruct Hc as [Hc|[Hc|Hc]]; [discriminate|lia|]. specialize (Ha 1 Hc). lia.
Qed.

Lemma announced_child k cs c x : In c cs ->
  In x (match cut (is_coalesce (Node k cs)) c with
        | None => announced cfg c | Some BCoalesce => [1] | Some _ => [] end) ->
  In x (announced cfg (Node k cs)).
Proof.
  intros Hc Hx.
  assert (Hx' : In x (flat_map (fun c => match cut (is_coalesce (Node k cs)) c with
      | None => announced cfg c | Some BCoalesce => [1] | Some _ => [] end) cs)).
  { apply in_flat_map. exists c. split; [exact Hc|exact Hx]. }
  destruct cs as [|c0 cs]; [destruct Hc|].
  destruct k; cbn [announced is_coalesce] in *; apply in_app_iff; right; try exact Hx'.
  apply in_app_iff. right. exact Hx'.
Qed.

Lemma inv_child head rem s n k cs c : inv head rem s n (Node k cs) -> In c cs ->
  cinv (is_coalesce (Node k cs)) head rem s n c.
Proof.
  intros Hi Hc. pose proof (inv_pos _ _ _ _ _ Hi) as Hn. pose proof Hi as (H1 & H2 & H3 & H4 & H5 & H6).
  split; [|split; [exact Hn|split; [exact H3|]]].
  - intros Ec. repeat split; auto; try lia. intros x Hx. apply H2. eapply announced_child; eauto. now rewrite Ec.
  - intros Ec. apply (inv_one _ _ _ _ _ Hi). right. right. eapply announced_child; eauto. rewrite Ec. now left.
Qed.

Lemma inv_stage c tasks : Q c tasks -> inv false true tasks tasks c.
Proof. intros [H1 H2]. repeat split; auto; try lia; discriminate. Qed.

Lemma inv_elided rem c : Q c 1 -> inv false rem 1 1 c.
Proof. intros [H1 H2]. repeat split; auto; lia. Qed.

Lemma scans_node P k (cs : list tree) : cs <> [] -> every_scan P (Node k cs) -> forall c, In c cs -> every_scan P c.
Proof.
  intros Hne H. assert (HF : Forall (fun P => P) (map (every_scan P) cs)).
  { destruct cs as [|c cs]; [congruence|]. destruct k; exact H. }
  rewrite Forall_map, Forall_forall in HF. exact HF.
Qed.
Lemma scans_ciu P w m (cs : list tree) : every_scan P (Ciu w m cs) -> forall c : tree, In c cs -> every_scan P c.
Proof. intros H. cbn in H. rewrite Forall_map, Forall_forall in H. exact H. Qed.

Lemma placed_node head k cs : placed cfg most head (Node k cs) -> forall c, In c cs ->
  placed cfg most (match cut (is_coalesce (Node k cs)) c with None => head | Some _ => false end) c.
Proof. intros [_ H]. rewrite Forall_map, Forall_forall in H. exact H. Qed.

(** ** Single partitions *)

Notation faithful := (faithful_scan cfg most).
Notation deployed := (deployed cfg Q).
Notation dchild := (dchild cfg Q).

Lemma one_part_child c :
  (forall head rem s n d, every_scan faithful c -> inv head rem s n c -> one_part c -> deployed c s n d -> tparts d = 1) ->
  forall head rem s n d, every_scan faithful c -> cinv false head rem s n c -> one_part c ->
    dchild false c (deployed c) s n d -> tparts d = 1.
Proof.
  intros IH head rem s n d Hs Hc Ho H. unfold dchild in H. destruct (cut false c) as [b|] eqn:Ec.
  - destruct H as (tasks & i & Hq & Hi & H).
    pose proof (IH false true tasks tasks i Hs (inv_stage c tasks Hq) Ho Hi) as Hp.
    destruct (elided cfg n tasks); [now subst d|]. destruct H as (num & h & plan & _ & _ & ->).
    cbn [tparts]. rewrite boundary_partitioning_count. unfold cut in Ec.
    destruct (is_hash_repart c); [injection Ec as <-; exact Hp|].
    destruct (is_bcast c) eqn:Eb; [injection Ec as <-; exact Hp|discriminate].
  - eapply IH; eauto. now apply Hc.
Qed.

Lemma Forall2_one {A B} (R : A -> B -> Prop) x l : Forall2 R [x] l -> exists y, l = [y] /\ R x y.
Proof. intros H. inversion H as [|? y ? l' Hxy Hl]; subst. inversion Hl; subst. eauto. Qed.
Lemma Forall2_two {A B} (R : A -> B -> Prop) x x' l : Forall2 R [x; x'] l -> exists y y', l = [y; y'] /\ R x y /\ R x' y'.
Proof.
  intros H. inversion H as [|? y ? l' Hxy Hl]; subst. apply Forall2_one in Hl as (y' & -> & Hy'). eauto.
Qed.

Lemma one_part_deployed (p : tree) E D : typed pr p E D ->
  forall head rem s n d, every_scan faithful p -> inv head rem s n p -> one_part p -> deployed p s n d -> tparts d = 1.
Proof.
  induction 1 as [l|h k c E D Hk Hc IH|k c E D Hk Hc IH|spm c E D Hc IH Hr|cs E Hne Ha Hc IH|w m cs E Hne Ha Hc IH
    |o c E E' D D' Hc IH Ho Ha Hre Hd Hcar|o c h k E E' D' Hc IH Ho Ha Hre Hd Hcar|o c E E' D Hc IH Ho Ha Hre Hw Hd
    |a ty c hl hr na k l r D' Hl IHl Hr IHr Hk HD|j c hl hr na l x r Dl Dr D' Hx IHx Hr IHr Hb Hj Hk Hna HD
    |p E E' D D' Hp IH Ha He HD]; intros head rem s n d Hs Hi Hone H; try (now eapply IH; eauto);
    try (cbn [one_part map] in Hone; contradiction).
  - cbn in H. destruct Hi as (H1 & H2 & _). destruct (Hs s d H1 H2 H) as (l' & -> & Hp & _). cbn. now apply Hp.
  - apply deployed_node in H as (ds & -> & F); [|discriminate]. exact Hone.
  - apply deployed_node in H as (ds & -> & F); [|discriminate]. exact Hone.
  - apply deployed_node in H as (ds & -> & F); [|discriminate]. reflexivity.
  - apply deployed_node in H as (ds & -> & F); [|discriminate]. apply Forall2_one in F as (d & -> & F). cbn.
    eapply one_part_child; eauto; [eapply scans_node; eauto; [discriminate|now left]|exact (inv_child _ _ _ _ _ _ _ Hi (or_introl eq_refl))].
  - apply deployed_node in H as (ds & -> & F); [|discriminate]. apply Forall2_one in F as (d & -> & F). cbn.
    eapply one_part_child; eauto; [eapply scans_node; eauto; [discriminate|now left]|exact (inv_child _ _ _ _ _ _ _ Hi (or_introl eq_refl))].
  - apply deployed_node in H as (ds & -> & F); [|discriminate]. apply Forall2_one in F as (d & -> & F). cbn.
    eapply one_part_child; eauto; [eapply scans_node; eauto; [discriminate|now left]|exact (inv_child _ _ _ _ _ _ _ Hi (or_introl eq_refl))].
  - apply deployed_node in H as (ds & -> & F); [|discriminate]. apply Forall2_two in F as (dl & dr & -> & Fl & Fr). cbn.
    eapply one_part_child; [| |exact (inv_child _ _ _ _ _ _ _ Hi (or_introl eq_refl))|exact Hone|exact Fl]; [exact IHl|].
    eapply scans_node; [|exact Hs|]; [discriminate|now left].
  - apply deployed_node in H as (ds & -> & F); [|discriminate]. apply Forall2_two in F as (dl & dr & -> & Fl & Fr).
    assert (Hone' : one_part r).
    { destruct j as [[] ? ?| |]; cbn in Hone; try exact Hone. discriminate. }
    assert (G : tparts dr = 1).
    { eapply one_part_child; [| |exact (inv_child _ _ _ _ _ _ _ Hi (or_intror (or_introl eq_refl)))|exact Hone'|exact Fr]; [exact IHr|].
      eapply scans_node; [|exact Hs|]; [discriminate|right; now left]. }
    destruct j as [[] ? ?| |]; cbn; try exact G. discriminate.
Qed.

(** ** Stage plans without a head of their own *)

Definition headless (t : tree) : Prop :=
  match t with Node (KRepart _) _ | Node (KBcast _) _ | Net _ _ _ _ _ _ => False | _ => True end.

Lemma headless_deployed (p : tree) E D : typed pr p E D -> is_hash_repart p = false -> is_round_robin p = false ->
  forall head rem s n d, every_scan faithful p -> inv head rem s n p -> deployed p s n d -> headless d.
Proof.
  induction 1; cbn [is_hash_repart is_round_robin]; intros Hh Hr head rem s n' d Hs Hi Hd; try discriminate; eauto;
    try (apply deployed_node in Hd as (ds & -> & F); [exact Logic.I|discriminate || assumption]).
  - cbn in Hd. destruct Hi as (H1 & H2 & _). destruct (Hs s d H1 H2 Hd) as (l' & -> & _). exact Logic.I.
  - apply deployed_ciu in Hd as (? & ? & ds & -> & _); [exact Logic.I|assumption].
Qed.

Lemma headless_red (t : tree) : headless t -> headless (red t).
Proof. destruct t as [k cs| |]; [rewrite red_node|rewrite red_ciu|intros []]; auto. Qed.

Lemma headless_strip (t : tree) : headless t -> strip t = t.
Proof. destruct t as [[] [|c []]| |]; cbn; auto; contradiction. Qed.

Lemma headless_partitioning (t : tree) : headless t -> tpartitioning t = UnknownP (tparts t).
Proof. destruct t as [[] cs| |]; cbn; auto; contradiction. Qed.

Lemma headless_net b part q num tasks t : headless t ->
  red (Net b part q num tasks t) = Net b part q num tasks (red t).
Proof.
  intros H. apply headless_red in H. revert H. unfold red. destruct pr; [|reflexivity]. cbn [reduce_shuffles].
  destruct (reduce_shuffles t) as [[] cs| |]; cbn; auto; contradiction.
Qed.

Lemma headless_runs rem b part q num tasks plan n f : headless plan ->
  runs rem (Net b part q num tasks plan) n f ->
  exists g, runs true plan tasks g /\
    boundary_yields b part tasks (fun t => SOther (tparts plan) (g t)) n f.
Proof. destruct plan as [[] cs| |]; intros Hp H; try contradiction; exact H. Qed.

(** ** Boundaries *)

Lemma boundary_coalesce part tasks P (g f : table) : 1 <= tasks -> partition_count part = P * tasks ->
  boundary_yields BCoalesce part tasks (fun t => SOther P (g t)) 1 f ->
  consumer_rows 1 (P * tasks) f = consumer_rows tasks P g.
Proof.
  intros Ht Hp H. destruct (Nat.eq_dec P 0) as [->|HP].
  - cbn. unfold consumer_rows. cbn. symmetry. apply flat_map_nil.
  - rewrite <- Hp. cbn [boundary_yields boundary_execute] in H.
    change (partition_count part) with (partition_count (co_part (mkCoalesce part (Remote tasks) tasks))) in H |- *.
    rewrite (coalesce_cover P tasks 1 (fun t => SOther P (g t)) g ltac:(lia) ltac:(lia)
               (mkCoalesce part (Remote tasks) tasks) eq_refl eq_refl) with (out := f); [reflexivity| | |exact H].
    + cbn [co_part]. rewrite Hp. unfold div_ceil. rewrite Nat.add_sub, Nat.div_1_r, Nat.max_l by lia. reflexivity.
    + intros t _. split; [eexists; eexists; reflexivity|]. split; [reflexivity|]. apply other_yields.
Qed.

Lemma insert_head_strip (h : NetModel.head row) (p p' : splan row) : strip_head p = strip_head p' -> insert_head h p = insert_head h p'.
Proof. unfold insert_head. now intros ->. Qed.

Lemma shuffle_strip (pa pb : nat -> splan row) s ctx p : (forall t, strip_head (pa t) = strip_head (pb t)) ->
  shuffle_execute pa s ctx p = shuffle_execute pb s ctx p.
Proof.
  intros H. unfold shuffle_execute. destruct (sh_stage s); [reflexivity|].
  destruct (shuffle_requests s workers ctx p) as [reqs| |]; cbn [bind]; [|reflexivity|reflexivity].
  apply mapM_ext. intros r _. unfold pool_execute, worker_execute_task.
  now rewrite (insert_head_strip (rq_head r) _ _ (H (rq_task r))).
Qed.

Lemma boundary_shuffle h k tasks P n producers (g f : table) : 0 < k -> 0 < n ->
  (forall t, strip_head (producers t) = SOther P (g t)) ->
  boundary_yields BShuffle (HashP h k) tasks producers n f ->
  Permutation (consumer_rows n k f) (consumer_rows tasks P g) /\ located (Hashed h k) n k f.
Proof.
  intros Hk Hn Hp (f0 & H & HP). cbn [partition_count] in H, HP.
  assert (G : Permutation (consumer_rows n k f0) (consumer_rows tasks P g) /\ located (Hashed h k) n k f0).
  2: { destruct G as [G1 (G2 & G3 & G4)]. split; [rewrite <- G1; now apply consumer_rows_perm|].
       split; [exact G2|]. split; [exact G3|]. intros i p Hi Hp' r Hr. apply (G4 i p Hi Hp'). now rewrite <- (HP i p Hi Hp'). }
  clear f HP. rename f0 into f.
  assert (H' : observes (shuffle_execute (fun t => SRepart (HashP h k) (SOther P (g t)))
    (shuffle_with_input_stage (mkShuffle (HashP h k) (Local (SOther 0 (fun _ => [])) tasks) tasks) (Remote tasks))) n k f).
  { intros c j Hc Hj. destruct (H c j Hc Hj) as (st & He & Hm). exists st. split; [|exact Hm].
    rewrite <- He. apply shuffle_strip. intros t. symmetry. apply Hp. }
  split.
  - exact (shuffle_cover h k tasks n (SOther 0 (fun _ => [])) (fun t => SOther P (g t)) (fun _ => HashP h k) g Hk Hn
             (fun t _ => other_yields P (g t)) f H').
  - split; [reflexivity|]. split; [exact Hk|]. intros i p Hi Hp' r Hr.
    exact (proj2 (proj1 (shuffle_colocated h k tasks n (SOther 0 (fun _ => [])) (fun t => SOther P (g t)) (fun _ => HashP h k) g Hk Hn
             (fun t _ => other_yields P (g t)) f H' r i p Hi Hp') Hr)).
Qed.

Lemma boundary_broadcast part tasks P n k (g f : table) : 0 < P -> partition_count part = P ->
  boundary_yields BBroadcast part tasks (fun t => SBcast k (SOther P (g t))) n f ->
  forall i, i < n -> Permutation (flat_map (f i) (seq 0 P)) (consumer_rows tasks P g).
Proof.
  intros HP Hp H i Hi. cbn [boundary_yields boundary_execute] in H. rewrite Hp in H.
  exact (broadcast_cover P tasks n (SOther 0 (fun _ => [])) (fun t => SOther P (g t)) (fun _ => k) g HP
           (fun t _ => eq_refl) (fun t _ => other_yields P (g t)) f H i Hi).
Qed.

Lemma red_shuffle part q num tasks h m (i : tree) :
  red (Net BShuffle part q num tasks (Node (KRepart (HashP h m)) [i])) =
    Net BShuffle part q num tasks (Node (KRepart (HashP h m)) [red i]) \/
  exists req a ds, pr = true /\ i = Node (KOp (OAgg APartial req a)) ds /\
    red (Net BShuffle part q num tasks (Node (KRepart (HashP h m)) [i])) =
      Net BShuffle part q num tasks
        (Node (KOp (OAgg APartialReduce AnyDistribution a)) [Node (KRepart (HashP h m)) [red i]]).
Proof.
  unfold red. destruct pr; [|auto]. cbn [reduce_shuffles map].
  destruct i as [k cs|w mm cs|b p q' n' ts i].
  - cbn [reduce_shuffles]. destruct k as [| | | | | |[| |[] req a| | |]]; auto. right. eauto 10.
  - auto.
  - left. destruct (reduce_net b p q' n' ts i) as [->|(o & ->)]; reflexivity.
Qed.

(** ** Soundness *)

Definition sound (p : tree) (E : list row -> list row -> Prop) (D : spread row) : Prop :=
  forall head rem s n d f, deployed p s n d -> inv head rem s n p -> placed cfg most head p ->
    every_scan faithful p -> (is_hash_repart p = true -> n = 1) -> runs rem (red d) n f ->
    E (consumer_rows n (tparts d) f) (meaning p) /\ located D n (tparts d) f.

Definition sound_net (p : tree) (E : list row -> list row -> Prop) (D : spread row) : Prop :=
  forall h k c, p = Node (KRepart (HashP h k)) [c] ->
  forall rem n tasks q num i f, 1 <= n -> Q p tasks -> dchild false c (deployed c) tasks tasks i ->
    placed cfg most false p -> every_scan faithful p ->
    runs rem (red (Net BShuffle (HashP h k) q num tasks (Node (KRepart (HashP h (k * n))) [i]))) n f ->
    E (consumer_rows n k f) (meaning p) /\ located D n k f.

Definition sound_child (below : bool) (c : tree) (E : list row -> list row -> Prop) (D : spread row) : Prop :=
  forall head rem s n d f, dchild below c (deployed c) s n d -> cinv below head rem s n c ->
    placed cfg most (match cut below c with None => head | Some _ => false end) c ->
    every_scan faithful c -> (below = true -> is_round_robin c = false) -> runs rem (red d) n f ->
    E (consumer_rows n (tparts d) f) (meaning c) /\ (below = false -> located D n (tparts d) f).

Lemma hash_node (c : tree) E D : typed pr c E D -> is_hash_repart c = true ->
  exists h k c', c = Node (KRepart (HashP h k)) [c'].
Proof. induction 1; cbn [is_hash_repart]; intros Hh; try discriminate; eauto. Qed.

Lemma child_sound below c E D : typed pr c E D -> sound c E D -> sound_net c E D -> sound_child below c E D.
Proof.
  intros Ht HS HN head rem s n d f H Hc Hp Hs Hrr Hrun. pose proof (typed_additive _ _ _ Ht) as HE.
  unfold dchild in H. destruct (cut below c) as [b|] eqn:Ec.
  2: { destruct Hc as (Hi & _). specialize (Hi Ec).
       destruct (HS head rem s n d f H Hi Hp Hs) as [H1 H2]; auto.
       unfold cut in Ec. destruct (is_hash_repart c); [discriminate|discriminate]. }
  destruct Hc as (_ & Hn & Hrem & Hco). destruct H as (tasks & i & Hq & Hi & H).
  destruct (elided cfg n tasks) eqn:Eone.
  - subst d. apply elided_true in Eone as [-> ->].
    destruct (HS false rem 1 1 i f Hi (inv_elided rem c Hq) Hp Hs) as [H1 H2]; auto.
  - clear Eone. destruct H as (num & h & plan & Hh & Hplan & ->).
    destruct b.
    + (* shuffle *)
      assert (Hhash : is_hash_repart c = true).
      { unfold cut in Ec. destruct (is_hash_repart c); [reflexivity|]. destruct (is_bcast c), below; discriminate. }
      destruct (hash_node c E D Ht Hhash) as (hh & k & c' & ->).
      apply deployed_node in Hi as (ds & -> & F); [|discriminate]. apply Forall2_one in F as (i' & -> & F).
      cbn in Hh. injection Hh as <-. cbn in Hplan. injection Hplan as <-. cbn [boundary_partitioning tpartitioning] in Hrun.
      cbn [tparts boundary_partitioning tpartitioning partition_count].
      destruct (HN hh k c' eq_refl rem n tasks _ num i' f Hn Hq F Hp Hs Hrun) as [H1 H2]. auto.
    + (* broadcast *)
      assert (Hb : is_bcast c = true).
      { unfold cut in Ec. destruct (is_hash_repart c); [discriminate|]. destruct (is_bcast c); [reflexivity|]. destruct below; discriminate. }
      rewrite (typed_not_bcast c E D Ht) in Hb. discriminate.
    + (* coalesce *)
      assert (Hcut : is_hash_repart c = false /\ below = true).
      { unfold cut in Ec. destruct (is_hash_repart c); [discriminate|]. destruct (is_bcast c); [discriminate|].
        destruct below; [auto|discriminate]. }
      destruct Hcut as [Hhash ->]. specialize (Hco Ec). subst n.
      pose proof (headless_deployed c E D Ht Hhash (Hrr eq_refl) false true tasks tasks i Hs (inv_stage c tasks Hq) Hi) as Hl.
      cbn in Hh. injection Hh as <-. cbn in Hplan. rewrite (headless_strip i Hl) in Hplan. injection Hplan as <-.
      rewrite (headless_net _ _ _ _ _ i Hl) in Hrun.
      apply headless_runs in Hrun as (g & Hg & Hobs); [|now apply headless_red].
      rewrite red_tparts in Hobs.
      assert (Hpc : partition_count (boundary_partitioning BCoalesce i tasks) = tparts i * tasks)
        by exact (boundary_partitioning_count BCoalesce i tasks).
      destruct (HS false true tasks tasks i g Hi (inv_stage c tasks Hq) Hp Hs) as [H1 _]; [congruence|exact Hg|].
      split; [|discriminate]. cbn [tparts]. rewrite Hpc. rewrite (boundary_coalesce (boundary_partitioning BCoalesce i tasks) tasks (tparts i) g f); auto. destruct Hq; lia.
Qed.

Lemma add_concat E (HE : additive E) (xs ys : list (list row)) : List.length xs = List.length ys ->
  (forall i x y, nth_error xs i = Some x -> nth_error ys i = Some y -> E x y) -> E (List.concat xs) (List.concat ys).
Proof.
  revert ys. induction xs as [|x xs IH]; intros [|y ys] L H; try discriminate; cbn; [now apply add_refl|].
  apply (add_app E HE); [now apply (H 0)|]. apply IH; [cbn in L; lia|]. intros i. apply (H (S i)).
Qed.

(** The rows of all children, each executed by [n] tasks. *)
Lemma union_total n (ps : list nat) (fs : list table) (f : table) : List.length fs = List.length ps ->
  (forall i c g p, i < n -> nth_error fs c = Some g -> p < nth c ps 0 -> Permutation (f i (list_sum (firstn c ps) + p)) (g i p)) ->
  Permutation (consumer_rows n (list_sum ps) f) (List.concat (map (fun '(g, P) => consumer_rows n P g) (combine fs ps))).
Proof.
  intros L H. unfold consumer_rows at 1.
  transitivity (flat_map (fun i => flat_map (fun '(g, P) => flat_map (g i) (seq 0 P)) (combine fs ps)) (seq 0 n)).
  - apply flat_map_perm_ext. intros i Hi. apply in_seq in Hi.
    rewrite (union_rows (f i) ps (map (fun g => g i) fs)).
    + apply Permutation_refl'. clear H L. revert ps. induction fs as [|g fs IH]; intros [|P ps]; cbn; try reflexivity. now rewrite IH.
    + now rewrite map_length.
    + intros c g p Hg Hp. rewrite nth_error_map in Hg. destruct (nth_error fs c) as [g'|] eqn:Eg; [|discriminate].
      injection Hg as <-. apply H; auto; lia.
  - rewrite flat_map_swap. rewrite concat_map_flat_map. apply Permutation_refl'. apply flat_map_ext.
    intros [g P]. reflexivity.
Qed.

(** ** The build side of a collecting join *)

Lemma build_whole x l Dx : typed pr x (@Permutation row) Dx ->
  (forall below, sound_child below x (@Permutation row) Dx) -> build_side l x ->
  forall head rem s n d f, dchild false l (deployed l) s n d -> cinv false head rem s n l ->
    placed cfg most (match cut false l with None => head | Some _ => false end) l ->
    every_scan faithful l -> runs rem (red d) n f ->
    (exists y, l = Node (KCoalesce None None) [Node (KBcast 1) [y]]) \/ one_part l /\ n = 1 ->
    forall i, i < n -> Permutation (f i 0) (meaning x).
Proof.
  intros Hx HS Hb head rem s n d f H Hc Hp Hs Hrun Hw i Hi.
  destruct Hb as [->| ->].
  - destruct Hw as [(y & ->)|[Hone ->]].
    { apply typed_coalesce_inv in Hx as (_ & _ & E0 & D0 & Hy & _). apply typed_not_bcast in Hy. discriminate. }
    destruct (HS false head rem s 1 d f H Hc Hp Hs ltac:(discriminate) Hrun) as [H1 _].
    rewrite (one_part_child x (one_part_deployed x _ _ Hx) head rem s 1 d Hs Hc Hone H) in H1.
    rewrite one_task in H1. cbn in H1. rewrite app_nil_r in H1. now replace i with 0 by lia.
  - clear Hw. unfold dchild in H. cbn [cut is_hash_repart is_bcast] in H, Hp. destruct Hc as (Hinv & Hn & Hrem & _).
    specialize (Hinv eq_refl). apply deployed_node in H as (ds & -> & F); [|discriminate].
    apply Forall2_one in F as (db & -> & F). cbn [is_coalesce] in F.
    rewrite red_node in Hrun. cbn [map] in Hrun. apply runs_node in Hrun as (fs & Hfs & Hf).
    apply Forall2_one in Hfs as (g & -> & Hg). cbn [node_runs map nth limit_to] in Hf.
    destruct Hf as [_ Hf]. destruct (Hf i Hi) as (l & Hl & ->). rewrite red_tparts in Hl.
    assert (Hpx : placed cfg most false (Node (KBcast 1) [x])).
    { pose proof (placed_node _ _ _ Hp (Node (KBcast 1) [x]) (or_introl eq_refl)) as H'. exact H'. }
    assert (Hsx : every_scan faithful x).
    { refine (scans_node _ (KBcast 1) [x] ltac:(discriminate) _ x (or_introl eq_refl)).
      refine (scans_node _ (KCoalesce None None) [_] ltac:(discriminate) Hs _ (or_introl eq_refl)). }
    pose proof (placed_node _ _ _ Hpx x (or_introl eq_refl)) as Hpx'. cbn [is_coalesce] in Hpx'.
    clear Hp Hs Hpx. rewrite Hl. clear Hl Hf.
    unfold dchild in F. cbn [cut is_hash_repart is_bcast] in F. destruct F as (tasks & ib & Hq & Hib & F).
    apply deployed_node in Hib as (ds & -> & Fx); [|discriminate]. apply Forall2_one in Fx as (ix & -> & Fx).
    cbn [is_coalesce] in Fx.
    destruct (elided cfg n tasks) eqn:Eone.
    + subst db. apply elided_true in Eone as [-> ->].
      rewrite red_node in Hg. cbn [map] in Hg. apply runs_node in Hg as (fs & Hfs & Hg).
      apply Forall2_one in Hfs as (gx & -> & Hgx). cbn [node_runs map nth] in Hg. rewrite red_tparts in Hg.
      destruct (HS false false rem 1 1 ix gx Fx) as [H1 _]; auto.
      { refine (inv_child false rem 1 1 (KBcast 1) [x] x _ (or_introl eq_refl)). now apply inv_elided. }
      { discriminate. }
      rewrite one_task in H1. rewrite <- H1. assert (i = 0) as -> by lia.
      cbn [tparts map nth]. rewrite Nat.mul_1_r. apply flat_map_perm_ext. intros p Hpp. apply in_seq in Hpp.
      destruct (Hg 0 p ltac:(lia) ltac:(lia)) as (rows & He & Hr). cbn [exec parts] in He.
      destruct (Nat.eqb_spec (tparts ix) 0); [lia|]. rewrite (Nat.mod_small p) in He by lia.
      destruct (Nat.ltb_spec p (tparts ix)); [|lia]. injection He as <-. exact Hr.
    + destruct F as (num & h & plan & Hh & Hplan & ->). cbn in Hh. injection Hh as <-. cbn in Hplan.
      destruct (Nat.eqb_spec (tparts ix) 0) as [|Hpos]; [discriminate|]. injection Hplan as <-.
      cbn [boundary_partitioning tparts map nth] in Hg |- *. set (k := tparts ix * 1 * n / tparts ix) in Hg. clearbody k.
      assert (Er : red (Net BBroadcast (UnknownP (tparts ix * 1)) (query cfg) num tasks (Node (KBcast k) [ix])) =
               Net BBroadcast (UnknownP (tparts ix * 1)) (query cfg) num tasks (Node (KBcast k) [red ix]))
        by (unfold red; destruct pr; reflexivity).
      rewrite Er in Hg. cbn [runs] in Hg. destruct Hg as (gx & Hgx & Hobs). rewrite red_tparts in Hobs.
      cbn [partition_count] in *. rewrite Nat.mul_1_r in *.
      rewrite (boundary_broadcast (UnknownP (tparts ix)) tasks (tparts ix) n k gx g ltac:(lia) eq_refl Hobs i Hi).
      destruct (HS false false true tasks tasks ix gx Fx) as [H1 _]; auto.
      { refine (inv_child false true tasks tasks (KBcast 1) [x] x _ (or_introl eq_refl)). now apply inv_stage. }
      { discriminate. }
Qed.

(** ** Isolated unions *)

Lemma nth_error_combine {A B} (l : list A) (l' : list B) : forall i x y,
  nth_error l i = Some x -> nth_error l' i = Some y -> nth_error (combine l l') i = Some (x, y).
Proof.
  revert l'. induction l as [|a l IH]; intros [|b l'] [|i] x y; cbn; intros H1 H2; try discriminate; [congruence|auto].
Qed.

Lemma isolated_nth (cs : list tree) (fs : list table) i : List.length fs = List.length cs -> i < List.length cs ->
  exists c g, nth_error cs i = Some c /\ nth_error fs i = Some g /\
    nth_error (isolated_children cs fs) i = Some (mkChild (tparts c) (fun ctx p => Ok (g (task_index ctx) p))).
Proof.
  intros L Hi. destruct (nth_error cs i) as [c|] eqn:Ec; [|apply nth_error_None in Ec; lia].
  destruct (nth_error fs i) as [g|] eqn:Eg; [|apply nth_error_None in Eg; lia].
  exists c, g. repeat split. unfold isolated_children. now rewrite nth_error_map, (nth_error_combine _ _ i c g Ec Eg).
Qed.

Lemma isolated_length (cs : list tree) (fs : list table) : List.length fs = List.length cs ->
  List.length (isolated_children cs fs) = List.length cs.
Proof. intros L. unfold isolated_children. rewrite map_length, combine_length. lia. Qed.

Lemma isolated_slot (cs : list tree) (fs : list table) : List.length fs = List.length cs -> forall s x,
  slot_partitions (isolated_children cs fs) s = Ok x -> x = slot_parts (map tparts cs) s.
Proof.
  intros L s x H. unfold slot_partitions in H.
  destruct (mapM _ s) as [ns| |] eqn:Em; cbn [bind] in H; try discriminate. injection H as <-.
  apply mapM_ok_inv in Em. unfold slot_parts. f_equal.
  induction Em as [|[i ctx] y s ns Hy Em IH]; cbn; [reflexivity|]. rewrite IH. f_equal.
  destruct (Nat.lt_ge_cases i (List.length cs)) as [Hi|Hi].
  - destruct (isolated_nth cs fs i L Hi) as (c & g & Ec & _ & E). rewrite E in Hy. injection Hy as <-. cbn.
    rewrite (nth_indep _ 0 (tparts c)) by (now rewrite map_length). rewrite map_nth. f_equal. symmetry. now apply nth_error_nth.
  - rewrite (proj2 (nth_error_None _ _)) in Hy by (rewrite isolated_length by assumption; exact Hi). discriminate.
Qed.

Lemma isolated_total n w m (cs : list tree) (fs : list table) (f : table) :
  split_children w n = Ok m -> good_allocation w n m -> List.length w = List.length cs -> List.length fs = List.length cs ->
  (forall i p, i < n -> p < tparts (Ciu w m cs) -> exists rows,
      ciu_execute (mkCiu (tparts (Ciu w m cs)) (isolated_children cs fs) w m) (mkCtx i n) p = Ok rows /\
      Permutation (f i p) rows) ->
  Permutation (consumer_rows n (tparts (Ciu w m cs)) f)
    (flat_map (fun i => match nth_error cs i, nth_error fs i with
       | Some c, Some g => consumer_rows (nth i (map_task_counts (List.length cs) m) 0) (tparts c) g
       | _, _ => [] end) (seq 0 (List.length cs))).
Proof.
  intros Es Hg Lw L H.
  assert (Hgood : forall m', split_children w n = Ok m' -> good_allocation w n m') by (intros m' E; congruence).
  assert (Hn : 0 < n) by (unfold split_children in Es; destruct (Nat.eqb_spec n 0); [discriminate|lia]).
  set (children := isolated_children cs fs) in *.
  assert (Lc : List.length children = List.length w) by (unfold children; rewrite isolated_length; lia).
  destruct (ciu_new_ok children w n m Lc Hn Es Hg) as (u & Hu).
  destruct (ciu_new_inv children w n u Hu) as (_ & m' & counts & Es' & Ec & Eu).
  assert (m' = m) as -> by congruence.
  assert (Hparts : list_max counts = tparts (Ciu w m cs)).
  { cbn [tparts]. f_equal. apply mapM_ok_inv in Ec. clear -cfg most pr Q Ec L. induction Ec as [|s x m counts Hx Ec IH]; cbn; [reflexivity|].
    rewrite IH. f_equal. now apply (isolated_slot cs fs L). }
  rewrite Hparts in Eu. 
  set (data := fun i (ctx : TaskCtx) p => match nth_error fs i with Some g => g (task_index ctx) p | None => [] end).
  destruct (built_rows children w n u Hu Hgood data) as (out & Hout & Hall).
  { intros i c ctx p Hc Hp. assert (Hi : i < List.length cs).
    { rewrite <- Lw, <- Lc. apply nth_error_Some. congruence. }
    destruct (isolated_nth cs fs i L Hi) as (c' & g & _ & Eg & E). fold children in E. rewrite E in Hc. injection Hc as <-.
    unfold data. now rewrite Eg. }
  subst u. cbn [ciu_parts task_idx_map] in *.
  rewrite (consumer_rows_perm n _ f out).
  2: { intros i p Hi Hp. destruct (H i p Hi Hp) as (rows & He & Hr). rewrite (Hout i p Hi Hp) in He. injection He as <-. exact Hr. }
  unfold consumer_rows at 1. rewrite Hall. unfold all_child_rows, all_child_reads. rewrite flat_map_flat_map.
  rewrite Lc, Lw. apply Permutation_refl'. apply flat_map_ext_in. intros i Hi. apply in_seq in Hi.
  destruct (isolated_nth cs fs i L ltac:(lia)) as (c & g & E1 & E2 & E3). fold children in E3. rewrite E1, E2, E3.
  cbn [ch_parts]. rewrite flat_map_flat_map.
  rewrite <- Lw. rewrite (proj1 (count_of_good w n m i Es Hg ltac:(lia))).
  unfold all_tasks. rewrite flat_map_map. unfold consumer_rows. apply flat_map_ext. intros t.
  rewrite flat_map_map. apply flat_map_ext. intros p. unfold data. now rewrite E2.
Qed.

Lemma deployed_op (p : tree) E D : typed pr p E D -> forall head rem s n o ds,
  every_scan faithful p -> inv head rem s n p -> deployed p s n (Node (KOp o) ds) -> exists cs, p = Node (KOp o) cs.
Proof.
  induction 1; intros head rem s n' o' ds Hs Hi Hd; eauto;
    try (apply deployed_node in Hd as (ds' & Ed & F); [|discriminate || assumption]; injection Ed as -> ?; eauto; discriminate);
    try (apply deployed_node in Hd as (ds' & Ed & F); [|discriminate || assumption]; discriminate).
  - cbn in Hd. destruct Hi as (H1 & H2 & _). destruct (Hs s _ H1 H2 Hd) as (l' & El & _). discriminate.
  - apply deployed_ciu in Hd as (? & ? & ds' & Ed & _); [discriminate|assumption].
Qed.

Lemma unary k c head rem s n d f : deployed (Node k [c]) s n d -> inv head rem s n (Node k [c]) ->
  placed cfg most head (Node k [c]) -> every_scan faithful (Node k [c]) -> runs rem (red d) n f ->
  exists d' g, d = Node k [d'] /\ dchild (is_coalesce (Node k [c])) c (deployed c) s n d' /\
    cinv (is_coalesce (Node k [c])) head rem s n c /\
    placed cfg most (match cut (is_coalesce (Node k [c])) c with None => head | Some _ => false end) c /\
    every_scan faithful c /\ runs rem (red d') n g /\ node_runs rem k [tparts d'] n [g] f.
Proof.
  intros H Hi Hp Hs Hrun. apply deployed_node in H as (ds & -> & F); [|discriminate].
  apply Forall2_one in F as (d' & -> & F). rewrite red_node in Hrun. apply runs_node in Hrun as (fs & Hfs & Hf).
  cbn [map] in Hfs, Hf. apply Forall2_one in Hfs as (g & -> & Hg). rewrite red_tparts in Hf.
  exists d', g. split; [reflexivity|]. split; [exact F|]. split; [exact (inv_child _ _ _ _ _ _ _ Hi (or_introl eq_refl))|].
  split; [exact (placed_node _ _ _ Hp c (or_introl eq_refl))|].
  split; [refine (scans_node _ k [c] ltac:(discriminate) Hs c (or_introl eq_refl))|]. auto.
Qed.

Lemma binary j c hl hr na l r head rem s n d f : let k := KJoin j c hl hr na in
  deployed (Node k [l; r]) s n d -> inv head rem s n (Node k [l; r]) ->
  placed cfg most head (Node k [l; r]) -> every_scan faithful (Node k [l; r]) -> runs rem (red d) n f ->
  exists dl dr gl gr, d = Node k [dl; dr] /\
    (dchild false l (deployed l) s n dl /\ cinv false head rem s n l /\
     placed cfg most (match cut false l with None => head | Some _ => false end) l /\
     every_scan faithful l /\ runs rem (red dl) n gl) /\
    (dchild false r (deployed r) s n dr /\ cinv false head rem s n r /\
     placed cfg most (match cut false r with None => head | Some _ => false end) r /\
     every_scan faithful r /\ runs rem (red dr) n gr) /\
    node_runs rem k [tparts dl; tparts dr] n [gl; gr] f.
Proof.
  intros k H Hi Hp Hs Hrun. apply deployed_node in H as (ds & -> & F); [|discriminate].
  apply Forall2_two in F as (dl & dr & -> & Fl & Fr). rewrite red_node in Hrun. apply runs_node in Hrun as (fs & Hfs & Hf).
  cbn [map] in Hfs, Hf. apply Forall2_two in Hfs as (gl & gr & -> & Hgl & Hgr). rewrite !red_tparts in Hf.
  exists dl, dr, gl, gr. split; [reflexivity|]. split; [|split; [|exact Hf]].
  - split; [exact Fl|]. split; [exact (inv_child _ _ _ _ _ _ _ Hi (or_introl eq_refl))|].
    split; [exact (placed_node _ _ _ Hp l (or_introl eq_refl))|].
    split; [refine (scans_node _ k [l; r] ltac:(discriminate) Hs l (or_introl eq_refl))|exact Hgl].
  - split; [exact Fr|]. split; [exact (inv_child _ _ _ _ _ _ _ Hi (or_intror (or_introl eq_refl)))|].
    split; [exact (placed_node _ _ _ Hp r (or_intror (or_introl eq_refl)))|].
    split; [refine (scans_node _ k [l; r] ltac:(discriminate) Hs r (or_intror (or_introl eq_refl)))|exact Hgr].
Qed.

Theorem typed_sound (p : tree) E D : typed pr p E D -> sound p E D /\ sound_net p E D.
Proof.
  induction 1 as [l|h k c E D Hk Hc IH|k c E D Hk Hc IH|spm c E D Hc IH Hr|cs E Hne Ha Hc IH|w m cs E Hne Ha Hc IH
    |o c E E' D D' Hc IH Ho Ha Hre Hd Hcar|o c h k E E' D' Hc IH Ho Ha Hre Hd Hcar|o c E E' D Hc IH Ho Ha Hre Hw Hd
    |a ty c hl hr na k l r D' Hl IHl Hr IHr Hk HD|j c hl hr na l x r Dl Dr D' Hx IHx Hr IHr Hb Hj Hk Hna HD
    |p E E' D D' Hp IH Ha He HD];
    try (assert (Hch : forall below, sound_child below c E D) by (intros below; destruct IH; now apply child_sound));
    (split; [intros head rem s n d f H Hi Hpl Hs Hone Hrun|try (intros h' k' c' Ep; discriminate)]).
  - (* leaf *)
    cbn in H. pose proof Hi as (H1 & H2 & H3 & H4 & _). destruct (Hs s d H1 H2 H) as (l' & -> & _ & Hrows).
    split; [|exact Logic.I]. rewrite red_node in Hrun. cbn [map] in Hrun. specialize (Hrows rem f).
    cbn zeta in Hrows. destruct rem; [rewrite (H4 eq_refl) in *|rewrite (H3 eq_refl) in *]; now apply Hrows.
  - (* hash repartition in one task *)
    pose proof (typed_additive _ _ _ Hc) as HE. specialize (Hone eq_refl). subst n.
    destruct (unary _ _ _ _ _ _ _ _ H Hi Hpl Hs Hrun) as (d' & g & -> & Fd & Fi & Fp & Fs & Fr & Hf).
    destruct (Hch _ _ _ _ _ _ _ Fd Fi Fp Fs ltac:(discriminate) Fr) as [H1 _].
    cbn [node_runs nth partition_count] in Hf. cbn [tparts partition_count].
    assert (Hf' := hash_rows h k (tparts d') (g 0) (f 0) (fun p Hp => Hf 0 p ltac:(lia) Hp)).
    split.
    + cbn [meaning map List.concat]. rewrite app_nil_r. apply (add_trans E HE) with (consumer_rows 1 (tparts d') g); [|exact H1].
      apply (add_perm E HE). rewrite !one_task. now apply (hash_total h k).
    + split; [reflexivity|]. split; [exact Hk|]. intros i p Hi' Hp' r Hr'. assert (i = 0) as -> by lia.
      apply (Permutation_in _ (Hf' p Hp')) in Hr'. apply filter_In in Hr' as [_ Hr']. apply Nat.eqb_eq in Hr'.
      rewrite Nat.mul_1_r. lia.
  - (* hash repartition below a shuffle *)
    pose proof (typed_additive _ _ _ Hc) as HE.
    intros h' k' c' Ep rem n tasks q num i f Hn Hq Hd Hp Hs Hrun. injection Ep as <- <- <-.
    assert (Hci : cinv false false true tasks tasks c)
      by exact (inv_child _ _ _ _ _ _ _ (inv_stage _ _ Hq) (or_introl eq_refl)).
    pose proof (placed_node _ _ _ Hp c (or_introl eq_refl)) as Hpc. cbn [is_coalesce] in Hpc.
    pose proof (scans_node _ (KRepart (HashP h k)) [c] ltac:(discriminate) Hs c (or_introl eq_refl)) as Hsc.
    cbn [meaning map List.concat]. rewrite app_nil_r.
    destruct (red_shuffle (HashP h k) q num tasks h (k * n) i) as [Er|(req & a & ds & Epr & Ei & Er)]; rewrite Er in Hrun; clear Er.
    + cbn [runs] in Hrun. destruct Hrun as (g & Hg & Hobs). rewrite red_tparts in Hobs. cbn [partition_count] in Hobs.
      destruct (boundary_shuffle h k tasks (tparts i) n (fun t => SRepart (HashP h (k * n)) (SOther (tparts i) (g t))) g f Hk ltac:(lia) (fun t => eq_refl) Hobs) as [H1 H2].
      destruct (Hch _ _ _ _ _ _ _ Hd Hci Hpc Hsc ltac:(discriminate) Hg) as [H3 _].
      split; [|exact H2]. apply (add_trans E HE) with (consumer_rows tasks (tparts i) g); [|exact H3]. now apply (add_perm E HE).
    + cbn [runs] in Hrun. destruct Hrun as (g & Hg & Hobs). cbn [tparts map nth partition_count] in Hobs.
      destruct (boundary_shuffle h k tasks (k * n) n (fun t => SOther (k * n) (g t)) g f Hk ltac:(lia) (fun t => eq_refl) Hobs) as [H1 H2].
      split; [|exact H2]. clear H2. destruct Hg as (fs & Hfs & Hg). cbn [map] in Hfs, Hg.
      apply Forall2_one in Hfs as (g2 & -> & Hg2). cbn [node_runs nth tparts partition_count op_fun agg_fun] in Hg.
      cbn [runs] in Hg2. destruct Hg2 as (fs & Hfs & Hg2). cbn [map] in Hfs, Hg2.
      apply Forall2_one in Hfs as (g3 & -> & Hg3). cbn [node_runs nth partition_count] in Hg2. rewrite red_tparts in Hg2.
      destruct (Hch _ _ _ _ _ _ _ Hd Hci Hpc Hsc ltac:(discriminate) Hg3) as [H3 _].
      assert (Hred : forall l, E (agg_reduce a l) l).
      { assert (Hcut : exists cs, c = Node (KOp (OAgg APartial req a)) cs).
        { subst i. unfold dchild in Hd. destruct (cut false c) as [b|] eqn:Ec.
          - destruct Hd as (t' & i' & Hq' & Hi' & Hd). destruct (elided cfg tasks t').
            + subst i'. eapply deployed_op; [exact Hc|exact Hsc|exact (inv_stage _ _ Hq')|exact Hi'].
            + destruct Hd as (? & ? & ? & _ & _ & Hd). discriminate.
          - eapply deployed_op; [exact Hc|exact Hsc|exact (proj1 Hci Ec)|exact Hd]. }
        destruct Hcut as (cs & ->). exact (typed_reduces _ _ _ _ Hc Epr). }
      apply (add_trans E HE) with (consumer_rows tasks (tparts i) g3); [|exact H3].
      apply (add_trans E HE) with (consumer_rows tasks (k * n) g); [now apply (add_perm E HE)|].
      apply (add_trans E HE) with (consumer_rows tasks (k * n) g2).
      * apply add_consumer; [exact HE|]. intros t p Ht Hpp. destruct (Hg t p Ht Hpp) as (l & Hl1 & Hl2).
        apply (add_trans E HE) with (agg_reduce a l); [now apply (add_perm E HE)|].
        apply (add_trans E HE) with l; [apply Hred|now apply (add_perm E HE)].
      * apply (add_perm E HE). unfold consumer_rows. apply flat_map_perm_ext. intros t Ht. apply in_seq in Ht.
        apply (hash_total h (k * n)); [nia|]. apply hash_rows. intros p Hpp. apply Hg2; lia.
  - (* round robin *)
    pose proof (typed_additive _ _ _ Hc) as HE.
    destruct (unary _ _ _ _ _ _ _ _ H Hi Hpl Hs Hrun) as (d' & g & -> & Fd & Fi & Fp & Fs & Fr & Hf).
    destruct (Hch _ _ _ _ _ _ _ Fd Fi Fp Fs ltac:(discriminate) Fr) as [H1 _].
    cbn [node_runs nth partition_count] in Hf. cbn [tparts partition_count]. split; [|exact Logic.I].
    cbn [meaning map List.concat]. rewrite app_nil_r. apply (add_trans E HE) with (consumer_rows n (tparts d') g); [|exact H1].
    apply (add_perm E HE). unfold consumer_rows. apply flat_map_perm_ext. intros i Hi'. apply in_seq in Hi'.
    apply (round_robin_rows k); [exact Hk|]. intros p Hpp. apply Hf; lia.
  - (* coalesce *)
    pose proof (typed_additive _ _ _ Hc) as HE.
    destruct (unary _ _ _ _ _ _ _ _ H Hi Hpl Hs Hrun) as (d' & g & -> & Fd & Fi & Fp & Fs & Fr & Hf).
    destruct (Hch _ _ _ _ _ _ _ Fd Fi Fp Fs (fun _ => Hr) Fr) as [H1 _].
    cbn [node_runs nth limit_to] in Hf. cbn [tparts]. split; [|exact Logic.I].
    cbn [meaning map List.concat]. rewrite app_nil_r. apply (add_trans E HE) with (consumer_rows n (tparts d') g); [|exact H1].
    apply (add_perm E HE). unfold consumer_rows. apply flat_map_perm_ext. intros i Hi'. apply in_seq in Hi'.
    destruct (proj2 Hf i ltac:(lia)) as (l & Hl & Hf'). cbn. now rewrite app_nil_r, Hf'.
  - (* union *)
    assert (Hch : forall c, In c cs -> sound_child false c E Anyhow)
      by (intros c Hin; destruct (IH c Hin); apply child_sound; auto).
    apply deployed_node in H as (ds & -> & F); [|exact Hne]. cbn [is_coalesce] in F.
    rewrite red_node in Hrun. apply runs_node in Hrun as (fs & Hfs & Hf). rewrite red_parts in Hf.
    cbn [node_runs tparts] in *. apply Forall2_nth in F as [L F]. apply Forall2_map_l in Hfs. apply Forall2_nth in Hfs as [L' Hfs].
    split; [|exact Logic.I]. change (meaning (Node KUnion cs)) with (List.concat (map meaning cs)).
    apply (add_trans E Ha) with (List.concat (map (fun '(g, P) => consumer_rows n P g) (combine fs (map tparts ds)))).
    + apply (add_perm E Ha). apply union_total; [rewrite map_length; lia|]. intros. eapply Hf; eauto.
    + apply add_concat; [exact Ha|rewrite !map_length, combine_length, map_length; lia|]. intros i x y Hx Hy.
      rewrite nth_error_map in Hx, Hy. destruct (nth_error cs i) as [c|] eqn:Ec; [|discriminate]. injection Hy as <-.
      assert (Hlt : i < List.length cs) by (apply nth_error_Some; congruence).
      destruct (nth_error ds i) as [di|] eqn:Ed; [|apply nth_error_None in Ed; lia].
      destruct (nth_error fs i) as [g|] eqn:Eg; [|apply nth_error_None in Eg; lia].
      rewrite (nth_error_combine fs (map tparts ds) i g (tparts di) Eg) in Hx by (now rewrite nth_error_map, Ed).
      injection Hx as <-. pose proof (nth_error_In _ _ Ec) as Hin.
      exact (proj1 (Hch c Hin _ _ _ _ _ _ (F i c di Ec Ed) (inv_child _ _ _ _ _ _ _ Hi Hin) (placed_node _ _ _ Hpl c Hin)
        (scans_node _ _ _ Hne Hs c Hin) ltac:(discriminate) (Hfs i di g Ed Eg))).
  - (* isolated *)
    assert (Hch : forall c, In c cs -> sound_child false c E Anyhow)
      by (intros c Hin; destruct (IH c Hin); apply child_sound; auto).
    apply deployed_ciu in H as (w' & m' & ds & -> & Es & Hg & Lw & HA & L & F); [|exact Hne].
    rewrite red_ciu in Hrun. apply runs_ciu in Hrun as (fs & (L' & Hfs) & Hf).
    destruct Hpl as [Hhead Hpl]. rewrite Forall_map, Forall_forall in Hpl.
    assert (Hns : n = s).
    { destruct Hi as (H1 & _ & _ & _ & H5 & H6). destruct Hhead as [Hh|Hh]; [auto|].
      destruct head; [rewrite (H6 eq_refl); lia|auto]. }
    subst s.
    assert (Ht : tparts (Ciu w' m' (map red ds)) = tparts (Ciu w' m' ds)) by (cbn [tparts]; now rewrite red_parts).
    rewrite map_length in L', Hfs.
    split; [|exact Logic.I]. rewrite <- Ht.
    apply (add_trans E Ha) with (flat_map (fun i => match nth_error (map red ds) i, nth_error fs i with
       | Some c, Some g => consumer_rows (nth i (map_task_counts (List.length (map red ds)) m') 0) (tparts c) g
       | _, _ => [] end) (seq 0 (List.length (map red ds)))).
    + apply (add_perm E Ha). apply isolated_total; auto; rewrite map_length; lia.
    + rewrite map_length, L. change (meaning (Ciu w m cs)) with (List.concat (map meaning cs)).
      rewrite concat_map_flat_map, <- (flat_map_seq_nth' cs meaning).
      apply add_flat_map; [exact Ha|]. intros i Hii. apply in_seq in Hii.
      rewrite nth_error_map.
      destruct (nth_error cs i) as [c|] eqn:Ec; [|apply nth_error_None in Ec; lia].
      destruct (nth_error ds i) as [di|] eqn:Ed; [|apply nth_error_None in Ed; lia].
      destruct (nth_error fs i) as [g|] eqn:Eg; [|apply nth_error_None in Eg; lia].
      cbn [option_map]. rewrite red_tparts. pose proof (nth_error_In _ _ Ec) as Hin.
      set (k := nth i (map_task_counts (List.length cs) m') 0) in *.
      assert (Hk1 : 1 <= k <= n /\ n <= most).
      { destruct (count_of_good w' n m' i Es Hg ltac:(lia)) as [E1 E2]. rewrite Lw in E1. unfold k. rewrite E1.
        destruct Hi as ((_ & H1) & _). split; [exact E2|exact H1]. }
      assert (Hrem : rem = false -> k = 1).
      { intros Erem. destruct Hi as (_ & _ & H3 & _). specialize (H3 Erem). lia. }
      assert (Hhk : head = true -> k = 1).
      { intros Eh. destruct Hi as (_ & _ & _ & _ & _ & H6). specialize (H6 Eh). lia. }
      specialize (F i c di Ec Ed). cbn zeta in F. fold k in F.
      assert (Hrunc : runs rem (red di) k g).
      { pose proof (Hfs i (red di) g) as H'. rewrite nth_error_map, Ed in H'. specialize (H' eq_refl Eg). rewrite L in H'. exact H'. }
      assert (Hci : cinv false head rem k k c).
      { split; [|split; [lia|split; [exact Hrem|]]].
        - intros Ecut. destruct (HA i c Ec Ecut) as [H1 H2]. fold k in H1, H2. repeat split; auto; lia.
        - unfold cut. destruct (is_hash_repart c), (is_bcast c); discriminate. }
      exact (proj1 (Hch c Hin _ _ _ _ _ _ F Hci (Hpl c Hin) (scans_ciu _ _ _ _ Hs c Hin) ltac:(discriminate) Hrunc)).
  - (* distributive *)
    pose proof (typed_additive _ _ _ Hc) as HE.
    destruct (unary _ _ _ _ _ _ _ _ H Hi Hpl Hs Hrun) as (d' & g & -> & Fd & Fi & Fp & Fs & Fr & Hf).
    destruct (Hch _ _ _ _ _ _ _ Fd Fi Fp Fs ltac:(discriminate) Fr) as [H1 H2]. specialize (H2 eq_refl).
    cbn [node_runs nth] in Hf. cbn [tparts map nth meaning]. split; [|eapply op_located; eauto].
    apply (add_trans E' Ha) with (flat_map (fun x => op_fun o (flat (tparts d') g x)) (seq 0 (n * tparts d'))).
    { eapply op_rows; eauto. apply Hd. }
    apply (add_trans E' Ha) with (op_fun o (flat_map (flat (tparts d') g) (seq 0 (n * tparts d')))).
    { eapply distributive_flat; eauto. }
    rewrite <- consumer_flat. now apply Hd.
  - (* keyed *)
    pose proof (typed_additive _ _ _ Hc) as HE.
    assert (Hch : forall below, sound_child below c E (Hashed h k)) by (intros below; destruct IH; now apply child_sound).
    destruct (unary _ _ _ _ _ _ _ _ H Hi Hpl Hs Hrun) as (d' & g & -> & Fd & Fi & Fp & Fs & Fr & Hf).
    destruct (Hch _ _ _ _ _ _ _ Fd Fi Fp Fs ltac:(discriminate) Fr) as [H1 H2]. specialize (H2 eq_refl).
    cbn [node_runs nth] in Hf. cbn [tparts map nth meaning]. split; [|eapply op_located; eauto].
    apply (add_trans E' Ha) with (flat_map (fun x => op_fun o (flat (tparts d') g x)) (seq 0 (n * tparts d'))).
    { eapply op_rows; eauto. apply Hd. }
    apply (add_trans E' Ha) with (op_fun o (flat_map (flat (tparts d') g) (seq 0 (n * tparts d')))).
    { eapply keyed_flat; [exact Ha|exact Hd|apply seq_NoDup|]. intros x y a b Hx Hy Hxy Hax Hby Heq.
      apply in_seq in Hx, Hy. apply Hxy.
      rewrite <- (located_flat h k n (tparts d') g H2 x ltac:(lia) a Hax).
      rewrite <- (located_flat h k n (tparts d') g H2 y ltac:(lia) b Hby). now rewrite Heq. }
    rewrite <- consumer_flat. now apply Hd.
  - (* whole *)
    pose proof (typed_additive _ _ _ Hc) as HE.
    destruct (unary _ _ _ _ _ _ _ _ H Hi Hpl Hs Hrun) as (d' & g & -> & Fd & Fi & Fp & Fs & Fr & Hf).
    destruct (Hch _ _ _ _ _ _ _ Fd Fi Fp Fs ltac:(discriminate) Fr) as [H1 _].
    cbn [node_runs nth] in Hf. cbn [tparts map nth meaning]. split; [|exact Logic.I].
    destruct Hpl as [Hpl _]. destruct (Hpl Hw) as [Hone' Halone]. pose proof (inv_one _ _ _ _ _ Hi Halone) as Hn1. subst n.
    rewrite (one_part_child c (one_part_deployed c _ _ Hc) _ _ _ _ _ Fs Fi Hone' Fd) in *.
    rewrite one_task in *. cbn [seq flat_map] in *. rewrite app_nil_r in *.
    destruct (Hf 0 0 ltac:(lia) ltac:(lia)) as (l & Hl1 & Hl2).
    apply (add_trans E' Ha) with (op_fun o l); [now apply (add_perm E' Ha)|]. apply Hd.
    apply (add_trans E HE) with (g 0 0); [now apply (add_perm E HE)|exact H1].
  - (* partitioned *)
    destruct IHl as [IHl IHl']. destruct IHr as [IHr IHr'].
    destruct (binary _ _ _ _ _ _ _ _ _ _ _ _ _ H Hi Hpl Hs Hrun)
      as (dl & dr & gl & gr & -> & (Fd & Fi & Fp & Fs & Fr) & (Gd & Gi & Gp & Gs & Gr) & Hf).
    destruct (child_sound false l _ _ Hl IHl IHl' _ _ _ _ _ _ Fd Fi Fp Fs ltac:(discriminate) Fr) as [Hl1 Hl2].
    destruct (child_sound false r _ _ Hr IHr IHr' _ _ _ _ _ _ Gd Gi Gp Gs ltac:(discriminate) Gr) as [Hr1 Hr2].
    specialize (Hl2 eq_refl). specialize (Hr2 eq_refl). pose proof Hl2 as (Pl & Hkpos & Hl3). pose proof Hr2 as (Pr & _ & Hr3).
    cbn [node_runs nth join_runs] in Hf. cbn [tparts map nth meaning join_rows]. rewrite Pl, Pr in *.
    pose proof (inv_pos _ _ _ _ _ Hi) as Hn.
    assert (Hx : forall x, x < n * k -> Permutation (flat k f x)
      (join ty c (class hl (n * k) x (consumer_rows n k gl)) (class hr (n * k) x (consumer_rows n k gr)))).
    { intros x Hx. destruct (flat_index n k x Hx) as (H1 & H2 & _). destruct (Hf _ H1) as [_ Hf']. unfold flat at 1.
      rewrite (Hf' _ H2). apply join_perm; [exact (class_flat hl k n k gl Hl2 x Hx)|exact (class_flat hr k n k gr Hr2 x Hx)]. }
    split.
    + rewrite consumer_flat.
      rewrite (flat_map_perm_ext _ (fun x => join ty c (class hl (n * k) x (consumer_rows n k gl)) (class hr (n * k) x (consumer_rows n k gr))))
        by (intros x Hin; apply in_seq in Hin; apply Hx; lia).
      rewrite (join_classes c hl hr _ _ (n * k) ltac:(nia) ltac:(intros y z _ _; apply Hk)). now apply join_perm.
    + destruct D' as [|h' n']; [exact Logic.I|]. destruct HD as [-> HD]. split; [reflexivity|]. split; [exact Hkpos|].
      intros i p Hi' Hp' x Hin. destruct (Hf i Hi') as [_ Hf']. apply (Permutation_in _ (Hf' p Hp')) in Hin.
      destruct (HD _ _ _ Hin) as [(y & Hy & ->)|(y & Hy & ->)]; auto.
  - (* collect *)
    destruct IHx as [IHx IHx']. destruct IHr as [IHr IHr'].
    destruct (binary _ _ _ _ _ _ _ _ _ _ _ _ _ H Hi Hpl Hs Hrun)
      as (dl & dr & gl & gr & -> & (Fd & Fi & Fp & Fs & Fr) & (Gd & Gi & Gp & Gs & Gr) & Hf).
    destruct (child_sound false r _ _ Hr IHr IHr' _ _ _ _ _ _ Gd Gi Gp Gs ltac:(discriminate) Gr) as [Hr1 Hr2].
    specialize (Hr2 eq_refl). destruct Hpl as [Hpl _]. specialize (Hpl Hj).
    assert (Hone1 : head = true \/ most = 1 \/ In 1 (announced cfg (Node (KJoin j c hl hr na) [l; r])) -> n = 1)
      by (intros Ha; exact (inv_one _ _ _ _ _ Hi Ha)).
    assert (Hleft : forall i, i < n -> Permutation (gl i 0) (meaning x)).
    { apply (build_whole x l Dl Hx (fun below => child_sound below x _ _ Hx IHx IHx') Hb head rem s n dl gl); auto.
      destruct Hpl as [[Hy _]|[Hy Ha]]; [left; exact Hy|right; auto]. }
    assert (Hmean : Permutation (meaning l) (meaning x)).
    { destruct Hb as [->| ->]; [reflexivity|]. cbn [meaning map List.concat]. now rewrite !app_nil_r. }
    set (F := join_rows j c na).
    assert (HF : forall L L' R R', Permutation L L' -> Permutation R R' -> Permutation (F L R) (F L' R')).
    { intros L L' R R' P1 P2. unfold F. destruct j as [cl a ty|ty|]; cbn [join_rows].
      - destruct cl; [destruct a; auto|]; now apply join_perm.
      - now apply join_perm.
      - unfold cross. rewrite (flat_map_perm_l _ _ _ P1). apply flat_map_perm_ext. intros y _. now apply Permutation_map. }
    assert (Hmj : meaning (Node (KJoin j c hl hr na) [l; r]) = F (meaning l) (meaning r)) by reflexivity.
    assert (Htp : tparts (Node (KJoin j c hl hr na) [dl; dr]) = tparts dr).
    { cbn [tparts map nth]. destruct j as [[] a ty|ty|]; [reflexivity|discriminate|reflexivity|reflexivity]. }
    rewrite Hmj, Htp. cbn [node_runs nth] in Hf.
    destruct (spreads j) eqn:Esp.
    + assert (Hsplit : forall L Rs, Permutation (flat_map (F L) Rs) (F L (List.concat Rs))).
      { intros L Rs. unfold F. destruct j as [cl a ty|ty|]; cbn [join_rows spreads collects] in *.
        - destruct cl; [|discriminate]. destruct a; [discriminate|]. cbn in Esp. now apply join_safe_split.
        - now apply join_safe_split.
        - apply cross_split. }
      assert (Hf' : forall i p, i < n -> p < tparts dr -> Permutation (f i p) (F (gl i 0) (gr i p))).
      { intros i p Hi' Hp'. destruct (Hf i Hi') as [_ Hf']. unfold F. destruct j as [cl a ty|ty|]; cbn [join_rows join_runs spreads collects] in *.
        - destruct cl; [|discriminate]. destruct a; [discriminate|]. cbn in Esp. rewrite Esp in Hf'. now apply Hf'.
        - rewrite Esp in Hf'. now apply Hf'.
        - now apply Hf'. }
      split.
      * rewrite (consumer_rows_perm n _ f (fun i p => F (meaning x) (gr i p)))
          by (intros i p Hi' Hp'; rewrite (Hf' i p Hi' Hp'); apply HF; auto).
        rewrite (HF _ _ _ _ Hmean (Permutation_sym Hr1)), !consumer_flat.
        rewrite (flat_map_concat_map (flat _ gr)), <- Hsplit, flat_map_map. reflexivity.
      * destruct D' as [|h' n']; [exact Logic.I|]. destruct Dr as [|h0 n0]; [destruct HD|].
        destruct HD as (_ & -> & HD). destruct Hr2 as (Er2 & Hn0 & Hloc). split; [exact Er2|]. split; [exact Hn0|].
        intros i p Hi' Hp' z Hz. apply (Permutation_in _ (Hf' i p Hi' Hp')) in Hz.
        destruct (HD _ _ _ Hz) as (y & Hy & ->). auto.
    + assert (n = 1) as ->.
      { destruct Hpl as [[_ [Hc'|Hc']]|[_ Hc']]; [discriminate|auto|auto]. }
      split.
      * rewrite one_task. destruct (Hf 0 ltac:(lia)) as [_ Hf'].
        assert (Ht : Permutation (flat_map (f 0) (seq 0 (tparts dr))) (F (gl 0 0) (flat_map (gr 0) (seq 0 (tparts dr))))).
        { unfold F. destruct j as [cl a ty|ty|]; cbn [join_rows join_runs spreads collects] in *.
          - destruct cl; [|discriminate]. destruct a; [exact Hf'|]. cbn in Esp. now rewrite Esp in Hf'.
          - now rewrite Esp in Hf'.
          - discriminate. }
        rewrite Ht. apply HF; [rewrite Hmean; apply Hleft; lia|]. now rewrite one_task in Hr1.
      * destruct D' as [|h' n']; [exact Logic.I|]. destruct Dr as [|h0 n0]; [destruct HD|]. destruct HD as (HD & _). discriminate.
  - (* weaken *)
    destruct IH as [IH _]. destruct (IH _ _ _ _ _ _ H Hi Hpl Hs Hone Hrun) as [H1 H2]. split; [auto|].
    destruct HD as [-> | ->]; [exact H2|exact Logic.I].
  - destruct IH as [_ IH]. intros h k c Ep rem n tasks q num i f Hn Hq Hd Hp' Hs Hrun.
    destruct (IH _ _ _ Ep _ _ _ _ _ _ _ Hn Hq Hd Hp' Hs Hrun) as [H1 H2]. split; [auto|].
    destruct HD as [-> | ->]; [exact H2|exact Logic.I].
Qed.

End Sound.
