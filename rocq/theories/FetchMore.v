(** Glue for the theorems of FetchProps.v: windows of gathered rows, rows per partition of a limited stage. *)
From Verif Require Import Base NetModel NetSpec CiuModel EventsModel JoinModel JoinSpec PlannerModel PlannerSpec PlannerProofs
  ExecModel ExecSpec ExecProofs ExecPasses ExecEnd FetchSpec FetchProofs FetchEnd FetchSort.
From Coq Require Import Sorting.Sorted.

Section More.
Context {row : Type}.
Notation tree := (tree row).
Notation table := (nat -> nat -> list row).

Lemma limit_window need skip fetch (l : list row) : enough need skip fetch ->
  limit_to fetch (skipn skip (limit_to need l)) = limit_to fetch (skipn skip l).
Proof.
  destruct need as [n|]; [|reflexivity]. destruct fetch as [f|]; [|now intros []]. cbn. intros H.
  apply (window_prefix n skip f); [|exact H]. rewrite firstn_firstn. now rewrite Nat.min_id.
Qed.

Lemma all_rows_one (d : tree) (f : table) : tparts d = 1 -> all_rows d 1 f = f 0 0.
Proof. intros H. unfold all_rows. rewrite H, consumer_one. cbn. apply app_nil_r. Qed.

Lemma runs_gathered spm need (x : tree) f all : (forall g, runs false x 1 g -> Permutation (all_rows x 1 g) all) ->
  runs false (Node (KCoalesce spm need) [x]) 1 f -> exists l, Permutation l all /\ f 0 0 = limit_to need l.
Proof.
  intros H R. apply runs_coalesce in R as (g & Rg & _ & R). destruct (R 0) as (l & Hl & E); [lia|].
  exists l. split; [|exact E]. rewrite Hl, <- (H g Rg). unfold all_rows. now rewrite consumer_one.
Qed.

Lemma limit_reorder need (l l' : list row) : Permutation l' (limit_to need l) -> exists l'', Permutation l'' l /\ limit_to need l'' = l'.
Proof.
  destruct need as [n|]; cbn; intros H; [|now exists l'].
  exists (l' ++ skipn n l). split; [now rewrite H, firstn_skipn|].
  pose proof (Permutation_length H) as E. rewrite firstn_length in E.
  destruct (Nat.lt_ge_cases (List.length l) n) as [Hn|Hn].
  - rewrite skipn_all2 by lia. rewrite app_nil_r. apply firstn_all2. lia.
  - rewrite firstn_app. replace (n - List.length l') with 0 by lia. rewrite firstn_all2 by lia. apply app_nil_r.
Qed.

(** ** Rows of a limited stage *)

Lemma limit_to_length n (l : list row) : List.length (limit_to (Some n) l) <= n.
Proof. cbn. rewrite firstn_length. lia. Qed.

Lemma fetch_rows rem (x : tree) n N f : fetch_of x = Some n -> runs rem x N f ->
  forall i p, i < N -> p < tparts x -> List.length (f i p) <= n.
Proof.
  intros Hf H i p Hi Hp.
  destruct x as [k cs| |]; try discriminate. destruct H as (fs & HF & H).
  assert (Hlen : List.length fs = List.length cs).
  { apply Forall2_len in HF. now rewrite map_length in HF. }
  destruct k; try discriminate.
  - cbn in Hf. subst. destruct fs as [|g [|]]; try contradiction. destruct (proj2 H i Hi) as (l & Hl & E).
    cbn in Hp. assert (p = 0) by lia. subst p. rewrite E. apply limit_to_length.
  - destruct o; try discriminate; cbn in Hf; destruct fs as [|g [|]]; try contradiction;
      destruct cs as [|c [|]]; try discriminate; cbn in Hp;
      destruct (H i p Hi Hp) as (l & Hl & E); rewrite (Permutation_length E); cbn [op_fun].
    + subst. apply limit_to_length.
    + subst. apply limit_to_length.
    + injection Hf as ->. rewrite firstn_length. lia.
Qed.

Lemma bounded_fetch (x : tree) n : exists m, fetch_of (bounded x n) = Some m /\ m <= n.
Proof.
  unfold bounded. assert (W : forall t' : tree, with_fetch x n = Some t' -> fetch_of t' = Some n).
  { intros t'. destruct x as [[]| |]; try discriminate; cbn [with_fetch].
    - intros [= <-]. reflexivity.
    - destruct o; try discriminate. intros [= <-]. reflexivity. }
  destruct (fetch_of x) as [f|] eqn:Ef; [destruct (Nat.leb_spec f n); [now exists f|]|];
    (destruct (with_fetch x n) as [t'|]; [exists n; split; [now apply W|lia]|exists n; split; [reflexivity|lia]]).
Qed.
Lemma bounded_rows rem (x : tree) n N f : runs rem (bounded x n) N f ->
  forall i p, i < N -> p < tparts x -> List.length (f i p) <= n.
Proof.
  intros H i p Hi Hp. destruct (bounded_fetch x n) as (m & Hm & Hle).
  rewrite <- (bounded_tparts x n) in Hp. pose proof (fetch_rows rem _ m N f Hm H i p Hi Hp). lia.
Qed.
Lemma through_rows rem (x : tree) n N f : runs rem (fetch_through_projection x n) N f ->
  forall i p, i < N -> p < tparts x -> List.length (f i p) <= n.
Proof.
  intros H i p Hi Hp. unfold fetch_through_projection in H.
  assert (B : forall y : tree, runs rem (bounded y n) N f -> tparts y = tparts x -> List.length (f i p) <= n).
  { intros y Hy Ey. apply (bounded_rows rem y n N f Hy i p Hi). now rewrite Ey. }
  destruct x as [k cs| |]; try exact (B _ H eq_refl). destruct k; try exact (B _ H eq_refl).
  destruct o; try exact (B _ H eq_refl). destruct cs as [|c [|]]; try exact (B _ H eq_refl). clear B.
  apply runs_op in H as (g & Hg & H). rewrite bounded_tparts in H. destruct (H i p Hi Hp) as (l & Hl & E).
  rewrite (Permutation_length E). cbn [op_fun]. rewrite map_length, (Permutation_length Hl).
  exact (bounded_rows rem c n N g Hg i p Hi Hp).
Qed.

(** The first level of the pass. *)
Lemma push_under fuel k (part : partitioning row) q num tasks (x d : tree) n :
  fetch_required (Node k [Net BCoalesce part q num tasks x]) = Some n -> limitable (Node k [Net BCoalesce part q num tasks x]) ->
  push_fetch_fuel fuel (Node k [Net BCoalesce part q num tasks x]) = Ok d ->
  exists i, d = Node k [Net BCoalesce part q num tasks i] /\ tparts i = tparts x /\
    forall N f, runs true i N f -> forall a p, a < N -> p < tparts x -> List.length (f a p) <= n.
Proof.
  intros Hn Hl H. destruct fuel as [|fuel]; [discriminate|]. rewrite push_unfold in H. unfold step_of in H. rewrite Hn in H.
  cbn [map push_child] in H.
  destruct (push_fetch_fuel fuel (Net BCoalesce part q num tasks (fetch_through_projection x n))) as [y| |] eqn:E; cbn [seqM bind] in H; try discriminate.
  injection H as <-. apply push_net in E as (fuel' & i & E & ->). exists i. split; [reflexivity|].
  split; [now rewrite (push_tparts _ _ _ E), through_tparts|].
  intros N f R. apply through_rows with (rem := true). eapply push_refines; [|exact E|exact R].
  apply limitable_node in Hl as [_ Hl]. destruct (Hl _ (or_introl eq_refl)) as [_ Hx]. now apply through_limitable.
Qed.
End More.
