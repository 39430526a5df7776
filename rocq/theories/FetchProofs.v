(** Proofs: pushing limits below the network. *)
From Verif Require Import Base NetModel NetSpec NetProofs CiuModel EventsModel JoinModel JoinSpec PlannerModel PlannerSpec PlannerProofs
  ExecModel ExecSpec ExecProofs ExecPasses ExecEnd FetchSpec.
From Coq Require Import Sorting.Sorted NArith.

Section Proofs.
Context {row : Type}.
Notation tree := (tree row).
Notation table := (nat -> nat -> list row).

Lemma finite_choice {A} (d : A) n (P : nat -> A -> Prop) : (forall i, i < n -> exists x, P i x) ->
  exists F, forall i, i < n -> P i (F i).
Proof.
  induction n as [|n IH]; intros H; [exists (fun _ => d); intros; lia|].
  destruct IH as (F & HF); [intros; apply H; lia|]. destruct (H n ltac:(lia)) as (x & Hx).
  exists (fun i => if i =? n then x else F i). intros i Hi. destruct (Nat.eqb_spec i n) as [->|]; [exact Hx|]. apply HF. lia.
Qed.
Lemma finite_choice2 {A} (d : A) n m (P : nat -> nat -> A -> Prop) : (forall i p, i < n -> p < m -> exists x, P i p x) ->
  exists F, forall i p, i < n -> p < m -> P i p (F i p).
Proof.
  intros H. destruct (finite_choice (fun _ => d) n (fun i F => forall p, p < m -> P i p (F p))) as (F & HF).
  { intros i Hi. apply finite_choice; [exact d|]. auto. }
  exists F. auto.
Qed.

(** ** Limited rows *)

(** [a] are rows of [b], all of them unless there are [n]. *)
Definition lim (n : nat) (a b : list row) : Prop :=
  exists r, Permutation b (a ++ r) /\ (List.length a < n -> r = []).

Lemma lim_refl n a : lim n a a.
Proof. exists []. rewrite app_nil_r. auto. Qed.
Lemma lim_perm n a a' b b' : Permutation a a' -> Permutation b b' -> lim n a b -> lim n a' b'.
Proof.
  intros Ha Hb (r & Hr & Hl). exists r. split; [now rewrite <- Hb, <- Ha|]. now rewrite <- (Permutation_length Ha).
Qed.
Lemma lim_map n (h : row -> row) a b : lim n a b -> lim n (map h a) (map h b).
Proof.
  intros (r & Hr & Hl). exists (map h r). rewrite <- map_app, map_length. split; [now apply Permutation_map|].
  intros H. now rewrite (Hl H).
Qed.
Lemma lim_firstn n a : lim n (firstn n a) a.
Proof.
  exists (skipn n a). split; [now rewrite firstn_skipn|]. rewrite firstn_length. intros H. apply skipn_all2. lia.
Qed.
Lemma lim_firstn_limit n fetch a : match fetch with Some f => n <= f | None => True end -> lim n (firstn n a) (limit_to fetch a).
Proof.
  intros H. destruct fetch as [f|]; cbn; [|apply lim_firstn].
  replace (firstn n a) with (firstn n (firstn f a)); [apply lim_firstn|]. rewrite firstn_firstn. f_equal. lia.
Qed.
Lemma lim_app n a b c d : lim n a b -> lim n c d -> lim n (a ++ c) (b ++ d).
Proof.
  intros (r & Hr & Hl) (r' & Hr' & Hl'). exists (r ++ r'). split.
  - rewrite Hr, Hr'. rewrite <- !app_assoc. apply Permutation_app_head. rewrite !app_assoc. apply Permutation_app_tail. apply Permutation_app_comm.
  - rewrite app_length. intros H. rewrite Hl, Hl' by lia. reflexivity.
Qed.
Lemma lim_flat_map {A} n (f g : A -> list row) l : (forall x, In x l -> lim n (f x) (g x)) -> lim n (flat_map f l) (flat_map g l).
Proof.
  induction l as [|x l IH]; intros H; [apply lim_refl|]. cbn. apply lim_app; [apply H; now left|]. apply IH. intros. apply H. now right.
Qed.
Lemma lim_extend n a b l : lim n a b -> Permutation l a -> exists l', Permutation l' b /\ firstn n l' = firstn n l.
Proof.
  intros (r & Hr & Hl) Hp. exists (l ++ r). split; [now rewrite Hr, Hp|].
  destruct (Nat.lt_ge_cases (List.length a) n) as [H|H]; [rewrite (Hl H), app_nil_r; reflexivity|].
  rewrite firstn_app. rewrite (Permutation_length Hp). replace (n - List.length a) with 0 by lia. cbn. apply app_nil_r.
Qed.
Lemma window_prefix n skip fetch (l l' : list row) : firstn n l' = firstn n l -> fetch + skip <= n ->
  firstn fetch (skipn skip l') = firstn fetch (skipn skip l).
Proof.
  intros H Hn. rewrite !firstn_skipn_comm. f_equal.
  assert (E : forall k : list row, firstn (skip + fetch) k = firstn (skip + fetch) (firstn n k)).
  { intros k. rewrite firstn_firstn. f_equal. lia. }
  rewrite (E l'), (E l), H. reflexivity.
Qed.

(** ** The network coalesce *)

Lemma merge_single (s o : list row) : merge_of [s] o -> o = s.
Proof.
  intros H. remember [s] as l eqn:El. revert s El.
  induction H as [ss H|pre x s' post o H IH]; intros s El; subst.
  - inversion H; subst. reflexivity.
  - destruct pre as [|? pre]; cbn in El; [|destruct pre; discriminate].
    injection El as <- ->. f_equal. apply IH. reflexivity.
Qed.

Lemma worker_other P (g : nat -> list row) a b ss : worker_execute_task (SOther P g) HNone a b = Ok ss ->
  ss = map g (seq a (b - a)) /\ forall p, In p (seq a (b - a)) -> p < P.
Proof.
  unfold worker_execute_task. cbn [insert_head strip_head bind parts exec]. revert ss. generalize (seq a (b - a)).
  induction l as [|p l IH]; intros ss H; cbn [mapM] in H; [injection H as <-; split; [reflexivity|now intros ? []]|].
  destruct (Nat.leb_spec P p) as [|Hp]; cbn [bind] in H; [discriminate|]. apply Nat.ltb_lt in Hp. rewrite Hp in H. cbn [bind] in H.
  destruct (mapM _ l) as [ys| |] eqn:E; cbn [bind] in H; try discriminate. injection H as <-.
  destruct (IH ys eq_refl) as [-> Hl]. split; [reflexivity|]. intros q [<-|Hq]; [now apply Nat.ltb_lt|auto].
Qed.
Lemma worker_other_ok P (g : nat -> list row) a b : (forall p, In p (seq a (b - a)) -> p < P) ->
  worker_execute_task (SOther P g) HNone a b = Ok (map g (seq a (b - a))).
Proof.
  unfold worker_execute_task. cbn [insert_head strip_head bind parts exec]. generalize (seq a (b - a)).
  induction l as [|p l IH]; intros H; [reflexivity|]. cbn [mapM map]. specialize (H p (or_introl eq_refl)) as Hp.
  destruct (Nat.leb_spec P p); [lia|]. apply Nat.ltb_lt in Hp. rewrite Hp. cbn [bind].
  rewrite IH by (intros; apply H; now right). reflexivity.
Qed.

(** A network coalesce hands rows on: what relates the rows of its producers relates its own rows. *)
Lemma coalesce_hands_on (R : list row -> list row -> Prop) part tasks P (g' g : table) n M f' : R [] [] ->
  (forall t p, t < tasks -> p < P -> R (g' t p) (g t p)) ->
  observes (boundary_execute BCoalesce part tasks (fun t => SOther P (g' t))) n M f' ->
  exists f, observes (boundary_execute BCoalesce part tasks (fun t => SOther P (g t))) n M f /\
    forall i p, i < n -> p < M -> R (f' i p) (f i p).
Proof.
  intros R0 HR H. cbn [boundary_execute] in *.
  assert (G : forall i p, i < n -> p < M -> exists out,
    (exists streams, coalesce_execute (fun t => SOther P (g t)) (mkCoalesce part (Remote tasks) tasks) (mkCtx i n) p = Ok streams /\
       merge_of streams out) /\ R (f' i p) out).
  { intros i p Hi Hp. destruct (H i p Hi Hp) as (ss & He & Hm). unfold coalesce_execute in *. cbn [co_stage co_pool] in *.
    destruct (coalesce_request _ (mkCtx i n) p) as [[r|]| |] eqn:Er; cbn [bind] in *; try discriminate.
    2: { injection He as <-. exists []. split; [exists []; split; [reflexivity|repeat constructor]|].
         inversion Hm as [|pre ? ? ? ? ? Hx]; [exact R0|]. destruct pre; discriminate. }
    unfold pool_execute in *. destruct (Nat.leb_spec tasks (rq_task r)) as [|Ht]; cbn [bind] in *; [discriminate|].
    assert (Hh : rq_head r = HNone).
    { clear -Er. unfold coalesce_request in Er.
      repeat match type of Er with (if ?b then _ else _) = _ => destruct b; try discriminate end. injection Er as <-. reflexivity. }
    rewrite Hh in *. destruct (worker_execute_task (SOther P (g' (rq_task r))) HNone (rq_start r) (rq_end r)) as [st| |] eqn:Ew;
      cbn [bind] in He; try discriminate.
    apply worker_other in Ew as [-> Hb]. rewrite (worker_other_ok P (g (rq_task r)) _ _ Hb). cbn [bind].
    destruct (rq_target r <? rq_start r); cbn [bind] in *; [discriminate|].
    destruct (nth_error (map (g' (rq_task r)) _) (rq_target r - rq_start r)) as [s|] eqn:En; cbn [bind] in He; [|discriminate].
    injection He as <-. apply merge_single in Hm. rewrite nth_error_map in En |- *.
    destruct (nth_error (seq (rq_start r) (rq_end r - rq_start r)) (rq_target r - rq_start r)) as [q|] eqn:Eq; cbn [option_map] in En |- *; [|discriminate].
    injection En as <-. cbn [bind]. exists (g (rq_task r) q). split.
    - exists [g (rq_task r) q]. split; [reflexivity|].
      pose proof (merge_concat [g (rq_task r) q]) as Hc. cbn in Hc. now rewrite app_nil_r in Hc.
    - rewrite Hm. apply HR; [exact Ht|]. apply Hb. eapply nth_error_In; eauto. }
  destruct (finite_choice2 [] n M _ G) as (f & Hf). exists f. split.
  - intros i p Hi Hp. exact (proj1 (Hf i p Hi Hp)).
  - intros i p Hi Hp. exact (proj2 (Hf i p Hi Hp)).
Qed.

(** ** Executions *)

Definition limited_table (n N P : nat) (f' f : table) : Prop := forall i p, i < N -> p < P -> lim n (f' i p) (f i p).

Lemma bounded_tparts (x : tree) n : tparts (bounded x n) = tparts x.
Proof.
  destruct (bounded_shape x n) as [->|[->|(k & k' & cs & -> & -> & Hw)]]; [reflexivity|reflexivity|].
  destruct k as [| | | | | |[]]; cbn in Hw; try discriminate; injection Hw as <-; reflexivity.
Qed.
Lemma through_tparts (x : tree) n : tparts (fetch_through_projection x n) = tparts x.
Proof.
  destruct (through_shape x n) as (t' & -> & [->|(h & i & -> & ->)]); [apply bounded_tparts|].
  cbn [tparts map nth]. apply bounded_tparts.
Qed.

Lemma runs_op rem o (c : tree) N f : runs rem (Node (KOp o) [c]) N f <->
  exists g, runs rem c N g /\ forall i p, i < N -> p < tparts c -> exists l, Permutation l (g i p) /\ Permutation (f i p) (op_fun o l).
Proof.
  rewrite runs_node. split.
  - intros (fs & F & H). apply Forall2_one in F as (g & -> & Hg). exists g. split; [exact Hg|exact H].
  - intros (g & Hg & H). exists [g]. split; [now repeat constructor|exact H].
Qed.
Lemma runs_coalesce rem spm fetch (c : tree) N f : runs rem (Node (KCoalesce spm fetch) [c]) N f <->
  exists g, runs rem c N g /\ 1 <= tparts c /\ forall i, i < N ->
    exists l, Permutation l (flat_map (g i) (seq 0 (tparts c))) /\ f i 0 = limit_to fetch l.
Proof.
  rewrite runs_node. split.
  - intros (fs & F & H). apply Forall2_one in F as (g & -> & Hg). exists g. split; [exact Hg|exact H].
  - intros (g & Hg & H). exists [g]. split; [now repeat constructor|exact H].
Qed.

Lemma local_limit_runs rem (x : tree) n N f' : runs rem (Node (KOp (OLocalLimit n)) [x]) N f' ->
  exists f, runs rem x N f /\ limited_table n N (tparts x) f' f.
Proof.
  intros H. apply runs_op in H as (g & Hg & H). exists g. split; [exact Hg|]. intros i p Hi Hp.
  destruct (H i p Hi Hp) as (l & Hl & Hf). eapply lim_perm; [symmetry; exact Hf|exact Hl|]. apply lim_firstn.
Qed.

Lemma bounded_runs rem (x : tree) n N f' : runs rem (bounded x n) N f' ->
  exists f, runs rem x N f /\ limited_table n N (tparts x) f' f.
Proof.
  unfold bounded. intros H.
  assert (Same : runs rem x N f' -> exists f, runs rem x N f /\ limited_table n N (tparts x) f' f).
  { intros Hx. exists f'. split; [exact Hx|]. intros i p _ _. apply lim_refl. }
  assert (New : match fetch_of x with Some f => n < f | None => True end ->
    runs rem match with_fetch x n with Some t' => t' | None => Node (KOp (OLocalLimit n)) [x] end N f' ->
    exists f, runs rem x N f /\ limited_table n N (tparts x) f' f).
  { clear H. intros Hf H. destruct (with_fetch x n) as [t'|] eqn:Ew; [|now apply local_limit_runs].
    destruct x as [k cs| |]; cbn in Ew; try discriminate.
    destruct k as [| | |spm fetch| | |[| | |s fetch| |]]; cbn in Ew; try discriminate; injection Ew as <-.
    - apply runs_node in H as (fs & F & H). destruct fs as [|g [|]]; cbn [node_runs] in H; try contradiction.
      assert (Hcs : exists c, cs = [c]) by (inversion F as [|c ? l ? ? F']; subst; inversion F'; subst; eauto).
      destruct Hcs as (c & ->). apply Forall2_one in F as (g' & E & Hg). injection E as <-.
      cbn [fetch_of] in Hf. cbn [map nth] in H.
      destruct H as [Hc H]. destruct (finite_choice [] N _ H) as (L & HL). exists (fun i _ => limit_to fetch (L i)). split.
      + apply runs_coalesce. exists g. split; [exact Hg|]. split; [exact Hc|]. intros i Hi. destruct (HL i Hi) as [H1 H2]. eauto.
      + intros i p Hi Hp. cbn in Hp. assert (p = 0) as -> by lia. rewrite (proj2 (HL i Hi)). cbn [limit_to].
        apply lim_firstn_limit. destruct fetch; [lia|exact Logic.I].
    - apply runs_node in H as (fs & F & H). destruct fs as [|g [|]]; cbn [node_runs] in H; try contradiction.
      assert (Hcs : exists c, cs = [c]) by (inversion F as [|c ? l ? ? F']; subst; inversion F'; subst; eauto).
      destruct Hcs as (c & ->). apply Forall2_one in F as (g' & E & Hg). injection E as <-.
      cbn [fetch_of] in Hf. cbn [map nth] in H.
      destruct (finite_choice2 [] N (tparts c) _ H) as (L & HL). exists (fun i p => limit_to fetch (s (L i p))). split.
      + apply runs_op. exists g. split; [exact Hg|]. intros i p Hi Hp. destruct (HL i p Hi Hp) as [H1 H2]. exists (L i p). split; [exact H1|reflexivity].
      + intros i p Hi Hp. cbn [tparts map nth] in Hp. destruct (HL i p Hi Hp) as [_ H2]. cbn [op_fun limit_to] in H2.
        eapply lim_perm; [symmetry; exact H2|reflexivity|]. apply lim_firstn_limit. destruct fetch; [lia|exact Logic.I]. }
  destruct (fetch_of x) as [f|]; [|apply New; [exact Logic.I|exact H]].
  destruct (Nat.leb_spec f n); [apply Same; exact H|apply New; [lia|exact H]].
Qed.

Lemma through_runs rem (x : tree) n N f' : runs rem (fetch_through_projection x n) N f' ->
  exists f, runs rem x N f /\ limited_table n N (tparts x) f' f.
Proof.
  destruct (through_shape x n) as (t' & -> & [->|(h & i & -> & ->)]); [apply bounded_runs|].
  intros H. apply runs_op in H as (g' & Hg' & H). apply bounded_runs in Hg' as (g & Hg & Hl). rewrite bounded_tparts in H.
  exists (fun t p => map h (g t p)). split.
  - apply runs_op. exists g. split; [exact Hg|]. intros t p _ _. exists (g t p). split; reflexivity.
  - intros t p Ht Hp. cbn [tparts map nth] in Hp. destruct (H t p Ht Hp) as (l & H1 & H2). cbn [op_fun] in H2.
    eapply lim_perm; [symmetry; exact H2|reflexivity|]. apply lim_map. eapply lim_perm; [symmetry; exact H1|reflexivity|]. auto.
Qed.

Lemma runs_net_bare rem b part q num tasks (x : tree) N f : bare x = true ->
  runs rem (Net b part q num tasks x) N f <->
  exists g, runs true x tasks g /\
    boundary_yields b part tasks (fun t => SOther (tparts x) (g t)) N f.
Proof. destruct x as [[] cs| |]; cbn [bare]; intros E; try discriminate; reflexivity. Qed.

Lemma bounded_bare (x : tree) n : bare x = true -> bare (bounded x n) = true.
Proof.
  intros H. destruct (bounded_shape x n) as [->|[->|(k & k' & cs & -> & -> & Hw)]]; [exact H|reflexivity|].
  destruct k as [| | | | | |[]]; cbn in Hw; try discriminate; injection Hw as <-; reflexivity.
Qed.
Lemma through_bare (x : tree) n : bare x = true -> bare (fetch_through_projection x n) = true.
Proof. intros H. destruct (through_shape x n) as (t' & -> & [->|(h & i & -> & ->)]); [now apply bounded_bare|reflexivity]. Qed.

(** A network coalesce above a limited stage. *)
Lemma push_child_runs rem n (c : tree) N f' : limitable c -> runs rem (push_child n c) N f' ->
  exists f, runs rem c N f /\ limited_table n N (tparts c) f' f.
Proof.
  intros Hl H.
  assert (Same : push_child n c = c -> exists f, runs rem c N f /\ limited_table n N (tparts c) f' f).
  { intros E. rewrite E in H. exists f'. split; [exact H|]. intros i p _ _. apply lim_refl. }
  destruct c as [| |b part q num tasks x]; try (apply Same; reflexivity). destruct b; try (apply Same; reflexivity).
  clear Same. cbn [push_child] in H. destruct Hl as [Hb _]. specialize (Hb eq_refl).
  apply runs_net_bare in H as (g' & Hg' & Ho); [|now apply through_bare]. rewrite through_tparts in Ho.
  apply through_runs in Hg' as (g & Hg & Hlim).
  destruct (coalesce_hands_on (lim n) part tasks (tparts x) g' g N (partition_count part) f' (lim_refl n []) Hlim Ho) as (f & Hf & HR).
  exists f. split; [apply runs_net_bare; eauto|exact HR].
Qed.

Lemma push_child_tparts n (c : tree) : tparts (push_child n c) = tparts c.
Proof. destruct c as [| |[]]; reflexivity. Qed.

Lemma limitable_node k (cs : list tree) : limitable (Node k cs) <->
  match k with KOp (OSort _ _) => Forall (fun c => is_net_coalesce c = false) cs | _ => True end /\
  forall c, In c cs -> limitable c.
Proof. cbn [limitable]. rewrite Forall_map, (Forall_forall (fun x => limitable x)). reflexivity. Qed.
Lemma limitable_ciu w m (cs : list tree) : limitable (Ciu w m cs) <-> forall c, In c cs -> limitable c.
Proof. cbn [limitable]. rewrite Forall_map, (Forall_forall (fun x => limitable x)). reflexivity. Qed.

(** One node whose limit is pushed into its children. *)
Lemma push_step rem k (cs : list tree) n N f : limitable (Node k cs) -> fetch_required (Node k cs) = Some n ->
  runs rem (Node k (map (push_child n) cs)) N f -> runs rem (Node k cs) N f.
Proof.
  intros Hl Hr H. apply limitable_node in Hl as [Hs Hl]. pose proof H as H0.
  apply runs_node in H0 as (fs & F & HN).
  assert (One : forall g, fs = [g] -> exists c, cs = [c]).
  { intros g ->. apply Forall2_map_l in F. inversion F as [|c ? l ? ? F']; subst. inversion F'; subst. eauto. }
  destruct k as [| | |spm fetch| | |o]; try discriminate.
  - destruct fs as [|g' [|]]; cbn [node_runs] in HN; try contradiction. destruct (One g' eq_refl) as (c & ->). clear One F HN.
    cbn [map] in H. apply runs_coalesce in H as (gg & Hg & Hc & H). clear g'.
    apply push_child_runs in Hg as (g & Hg & Hlim); [|apply Hl; now left].
    rewrite push_child_tparts in H, Hc. apply runs_coalesce. exists g. split; [exact Hg|]. split; [exact Hc|]. intros i Hi.
    destruct (H i Hi) as (l & H1 & H2). cbn in Hr. subst fetch.
    destruct (lim_extend n (flat_map (gg i) (seq 0 (tparts c))) (flat_map (g i) (seq 0 (tparts c))) l) as (l' & H3 & H4); [|exact H1|].
    + apply lim_flat_map. intros p Hp. apply in_seq in Hp. apply Hlim; [exact Hi|lia].
    + exists l'. split; [exact H3|]. rewrite H2. cbn [limit_to]. now rewrite H4.
  - destruct fs as [|g' [|]]; cbn [node_runs] in HN; try contradiction. destruct (One g' eq_refl) as (c & ->). clear One F HN.
    cbn [map] in H. apply runs_op in H as (gg & Hg & H). clear g'.
    assert (Hop : match o with OGlobalLimit s (Some x) => n = x + s | OLocalLimit x => n = x | OSort _ _ => True | _ => False end).
    { destruct o as [| | | |skip fetch|x]; cbn in Hr; try discriminate; auto.
      - destruct fetch as [x|]; [|discriminate]. destruct (N.leb _ _); [|discriminate]. congruence.
      - congruence. }
    destruct o as [| | |s fetch|skip fetch|x]; try contradiction.
    + inversion Hs as [|? ? Hc _]; subst. assert (E : push_child n c = c) by (destruct c as [| |[]]; try reflexivity; discriminate).
      rewrite E in *. apply runs_op. eauto.
    + destruct fetch as [x|]; [|contradiction]. apply push_child_runs in Hg as (g & Hg & Hlim); [|apply Hl; now left].
      rewrite push_child_tparts in H. apply runs_op. exists g. split; [exact Hg|]. intros i p Hi Hp.
      destruct (H i p Hi Hp) as (l & H1 & H2). destruct (lim_extend n (gg i p) (g i p) l (Hlim i p Hi Hp) H1) as (l' & H3 & H4).
      exists l'. split; [exact H3|]. rewrite H2. cbn [op_fun limit_to]. rewrite (window_prefix n skip x l l' H4 ltac:(lia)). reflexivity.
    + apply push_child_runs in Hg as (g & Hg & Hlim); [|apply Hl; now left].
      rewrite push_child_tparts in H. apply runs_op. exists g. split; [exact Hg|]. intros i p Hi Hp.
      destruct (H i p Hi Hp) as (l & H1 & H2). destruct (lim_extend n (gg i p) (g i p) l (Hlim i p Hi Hp) H1) as (l' & H3 & H4).
      exists l'. split; [exact H3|]. rewrite H2. cbn [op_fun]. subst x. now rewrite H4.
Qed.

(** ** The pass *)

Lemma bounded_limitable (x : tree) n : limitable x -> limitable (bounded x n).
Proof.
  intros H. destruct (bounded_shape x n) as [->|[->|(k & k' & cs & -> & -> & Hw)]]; [exact H| |].
  - apply limitable_node. split; [exact Logic.I|]. now intros ? [<-|[]].
  - destruct k as [| | | | | |[]]; cbn in Hw; try discriminate; injection Hw as <-; exact H.
Qed.
Lemma through_limitable (x : tree) n : limitable x -> limitable (fetch_through_projection x n).
Proof.
  intros H. destruct (through_shape x n) as (t' & -> & [->|(h & i & -> & ->)]); [now apply bounded_limitable|].
  apply limitable_node. split; [exact Logic.I|]. intros ? [<-|[]]. apply bounded_limitable.
  apply limitable_node in H as [_ H]. apply H. now left.
Qed.
Lemma push_child_limitable n (c : tree) : limitable c -> limitable (push_child n c).
Proof.
  intros H. destruct c as [| |[]]; try exact H. destruct H as [H1 H2]. cbn [push_child]. split.
  - intros _. apply through_bare. auto.
  - now apply through_limitable.
Qed.

Definition step_of (t : tree) : tree :=
  match fetch_required t with
  | None => t
  | Some fetch => match t with Node k cs => Node k (map (push_child fetch) cs) | _ => t end
  end.
Lemma push_unfold fuel (t : tree) : push_fetch_fuel (S fuel) t =
  match step_of t with
  | Node k cs => let* cs' := seqM (map (push_fetch_fuel fuel) cs) in Ok (Node k cs')
  | Ciu w m cs => let* cs' := seqM (map (push_fetch_fuel fuel) cs) in Ok (Ciu w m cs')
  | Net b p q n ts i => let* i' := push_fetch_fuel fuel i in Ok (Net b p q n ts i')
  end.
Proof. reflexivity. Qed.

Lemma step_limitable (t : tree) : limitable t -> limitable (step_of t).
Proof.
  intros H. unfold step_of. destruct (fetch_required t) as [n|] eqn:Er; [|exact H]. destruct t as [k cs| |]; try exact H.
  apply limitable_node in H as [H1 H2]. apply limitable_node. split.
  - destruct k as [| | | | | |[]]; auto. rewrite Forall_map. eapply Forall_impl; [|exact H1]. cbn. intros c Hc.
    destruct c as [| |[]]; auto; discriminate.
  - intros c Hc. apply in_map_iff in Hc as (c0 & <- & Hc). apply push_child_limitable. auto.
Qed.
Lemma step_tparts (t : tree) : tparts (step_of t) = tparts t.
Proof.
  unfold step_of. destruct (fetch_required t) as [n|]; [|reflexivity]. destruct t as [k cs| |]; try reflexivity.
  assert (E : map tparts (map (push_child n) cs) = map tparts cs).
  { rewrite map_map. apply map_ext. apply push_child_tparts. }
  cbn [tparts]. rewrite E. reflexivity.
Qed.
Lemma step_runs rem (t : tree) N f : limitable t -> runs rem (step_of t) N f -> runs rem t N f.
Proof.
  unfold step_of. destruct (fetch_required t) as [n|] eqn:Er; [|auto]. destruct t as [k cs| |]; auto.
  intros Hl. now apply push_step.
Qed.

Lemma push_tparts : forall fuel (t d : tree), push_fetch_fuel fuel t = Ok d -> tparts d = tparts t.
Proof.
  induction fuel as [|fuel IH]; intros t d H; [discriminate|]. rewrite push_unfold in H. rewrite <- (step_tparts t).
  assert (G : forall cs cs' : list tree, seqM (map (push_fetch_fuel fuel) cs) = Ok cs' -> map tparts cs' = map tparts cs).
  { intros cs cs' E. apply seqM_map_inv in E. clear -E IH. induction E; [reflexivity|]. cbn. f_equal; auto. }
  destruct (step_of t) as [k cs|w m cs|b p q n ts i].
  - destruct (seqM _) as [cs'| |] eqn:E; cbn in H; try discriminate. injection H as <-. cbn [tparts]. rewrite (G _ _ E). reflexivity.
  - destruct (seqM _) as [cs'| |] eqn:E; cbn in H; try discriminate. injection H as <-. cbn [tparts]. rewrite (G _ _ E). reflexivity.
  - destruct (push_fetch_fuel fuel i); cbn in H; try discriminate. injection H as <-. reflexivity.
Qed.

Lemma push_all_runs fuel : (forall (t d : tree) rem N f, limitable t -> push_fetch_fuel fuel t = Ok d -> runs rem d N f -> runs rem t N f) ->
  forall rem N (cs ds : list tree) fs, (forall c, In c cs -> limitable c) -> seqM (map (push_fetch_fuel fuel) cs) = Ok ds ->
  Forall2 (fun c g => runs rem c N g) ds fs -> Forall2 (fun c g => runs rem c N g) cs fs.
Proof.
  intros IH rem N cs ds fs Hl E. apply seqM_map_inv in E. revert fs.
  induction E as [|c d cs ds Ec E IHE]; intros fs F; inversion F; subst; constructor.
  - eapply IH; eauto. apply Hl. now left.
  - apply IHE; [|assumption]. intros. apply Hl. now right.
Qed.
Lemma push_all_tparts fuel (cs ds : list tree) : seqM (map (push_fetch_fuel fuel) cs) = Ok ds -> map tparts ds = map tparts cs.
Proof. intros E. apply seqM_map_inv in E. induction E as [|c d cs ds Ec E IHE]; [reflexivity|]. cbn. f_equal; [|exact IHE]. eapply push_tparts; eauto. Qed.

Lemma push_refines : forall fuel (t d : tree) rem N f, limitable t -> push_fetch_fuel fuel t = Ok d -> runs rem d N f -> runs rem t N f.
Proof.
  intros fuel. induction fuel as [fuel IH] using lt_wf_ind. intros t d rem N f Hl H Hr.
  destruct fuel as [|fuel]; [discriminate|]. rewrite push_unfold in H.
  apply step_runs; [exact Hl|]. apply step_limitable in Hl. revert H Hl. generalize (step_of t). clear t. intros t H Hl.
  destruct t as [k cs|w m cs|b part q num ts i].
  - destruct (seqM _) as [ds| |] eqn:E; cbn in H; try discriminate. injection H as <-.
    apply limitable_node in Hl as [_ Hl]. apply runs_node in Hr as (fs & F & HN). rewrite (push_all_tparts _ _ _ E) in HN.
    apply runs_node. exists fs. split; [|exact HN]. eapply (push_all_runs fuel); eauto.
  - destruct (seqM _) as [ds| |] eqn:E; cbn in H; try discriminate. injection H as <-.
    pose proof (proj1 (limitable_ciu _ _ _) Hl) as Hl'. pose proof (push_all_tparts _ _ _ E) as Et.
    assert (Ep : tparts (Ciu w m ds) = tparts (Ciu w m cs)) by (cbn [tparts]; now rewrite Et).
    apply runs_ciu in Hr as (fs & (L & F) & HN). apply seqM_map_inv in E. pose proof (Forall2_len _ _ _ E) as Len.
    rewrite Ep in HN. apply runs_ciu. exists fs. split; [split; [congruence|]|].
    + intros j c g Hc Hg. apply Forall2_nth in E as [_ E]. destruct (nth_error ds j) as [dj|] eqn:Ed.
      * rewrite Len. eapply (IH fuel); [lia| |exact (E j c dj Hc Ed)|exact (F j dj g Ed Hg)].
        apply Hl'. eapply nth_error_In; eauto.
      * apply nth_error_None in Ed. assert (j < List.length cs) by (apply nth_error_Some; congruence). lia.
    + assert (Ei : isolated_children ds fs = isolated_children cs fs).
      { unfold isolated_children. clear -Et. revert cs Et fs. induction ds as [|d ds IHd]; intros [|c cs] Et fs; try discriminate; [reflexivity|].
        injection Et as E1 E2. destruct fs as [|g fs]; [reflexivity|]. cbn. rewrite E1. f_equal. auto. }
      now rewrite Ei in HN.
  - destruct (push_fetch_fuel fuel i) as [i'| |] eqn:Ei; cbn in H; try discriminate. injection H as <-.
    destruct Hl as [_ Hl]. pose proof (push_tparts _ _ _ Ei) as Ep.
    assert (Bare : bare i = true -> bare i' = true -> runs rem (Net b part q num ts i) N f).
    { intros B B'. apply runs_net_bare in Hr as (g & Hg & Ho); [|exact B']. apply runs_net_bare; [exact B|].
      rewrite Ep in Ho. exists g. split; [|exact Ho]. eapply (IH fuel); eauto. }
    destruct fuel as [|fuel]; [discriminate|]. rewrite push_unfold in Ei.
    destruct i as [k cs|w m cs|b' p' q' n' t' i].
    2: { unfold step_of in Ei. cbn in Ei. destruct (seqM _) as [ds| |]; cbn in Ei; try discriminate. injection Ei as <-. now apply Bare. }
    2: { unfold step_of in Ei. cbn in Ei. destruct (push_fetch_fuel fuel i); cbn in Ei; try discriminate. injection Ei as <-. now apply Bare. }
    assert (Ek : exists cs0, step_of (Node k cs) = Node k cs0).
    { unfold step_of. destruct (fetch_required (Node k cs)); eauto. }
    destruct Ek as (cs0 & Ek). rewrite Ek in Ei.
    destruct (seqM _) as [ds| |] eqn:Ed; cbn in Ei; try discriminate. injection Ei as <-.
    destruct (bare (Node k cs)) eqn:B; [apply Bare; destruct k; try reflexivity; discriminate|].
    assert (Ecs : cs0 = cs) by (destruct k; try discriminate; unfold step_of in Ek; cbn in Ek; congruence). subst cs0.
    pose proof (push_all_tparts _ _ _ Ed) as Et. apply seqM_map_inv in Ed.
    assert (IH1 : forall c d0 g, In c cs -> push_fetch_fuel fuel c = Ok d0 -> runs true d0 ts g -> runs true c ts g).
    { intros c d0 g Hc E' Hg. apply limitable_node in Hl as [_ Hl]. eapply (IH fuel); eauto. }
    assert (Many : List.length cs <> 1 -> forall g, runs true (Node k ds) ts g -> False).
    { intros Hn g Hg. apply runs_node in Hg as (fs & F & HN). apply Forall2_len in F. pose proof (Forall2_len _ _ _ Ed).
      destruct fs as [|? [|]]; destruct k as [|[]| | | | |]; try discriminate; cbn [node_runs] in HN; try contradiction; cbn in F; congruence. }
    destruct cs as [|c [|c' cs]].
    + inversion Ed; subst. assert (exists g, runs true (Node k []) ts g) as (g & Hg) by (destruct k; try discriminate; destruct Hr as (g & Hg & _); eauto).
      exfalso. eapply Many; [|exact Hg]. discriminate.
    + apply Forall2_one in Ed as (d0 & -> & Ed). cbn [map] in Et. injection Et as Et.
      destruct k; try discriminate; cbn [runs] in *; destruct Hr as (g & Hg & Ho); rewrite Et in Ho;
        exists g; (split; [eapply IH1; eauto; now left|exact Ho]).
    + pose proof (Forall2_len _ _ _ Ed) as Hlen. destruct ds as [|d0 [|d1 ds]]; try discriminate.
      assert (exists g, runs true (Node k (d0 :: d1 :: ds)) ts g) as (g & Hg) by (destruct k; try discriminate; destruct Hr as (g & Hg & _); eauto).
      exfalso. eapply Many; [|exact Hg]. discriminate.
Qed.

End Proofs.
