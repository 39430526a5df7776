(** Proofs about answering requests for data. *)
From Coq Require Import NArith.
From Verif Require Import Base NetModel ServeModel.
Open Scope N_scope.

(** The partitions [start], …, [end_ - 1]. *)
Definition range (start end_ : N) : list N := map N.of_nat (seq (N.to_nat start) (N.to_nat (end_ - start))).

Section Proofs.
Context {St stream : Type}.
Variable partition_count : N.
Variable execute : St -> N -> St * Res stream.
Notation execute_from := (execute_from partition_count execute).

(** Executing partitions one after the other. *)
Inductive executes : St -> list N -> St -> list stream -> Prop :=
| ex_nil st : executes st [] st []
| ex_cons st p st1 s ps st2 l : execute st p = (st1, Ok s) -> executes st1 ps st2 l -> executes st (p :: ps) st2 (s :: l).

Lemma range_empty a b : b <= a -> range a b = [].
Proof. intros H. unfold range. replace (b - a) with 0 by lia. reflexivity. Qed.
Lemma range_step a b : a < b -> range a b = a :: range (a + 1) b.
Proof.
  intros H. unfold range. replace (N.to_nat (b - a)) with (S (N.to_nat (b - (a + 1)))) by lia. cbn [seq map].
  rewrite N2Nat.id. do 3 f_equal. lia.
Qed.
Lemma range_in a b p : In p (range a b) <-> a <= p < b.
Proof.
  unfold range. rewrite in_map_iff. split.
  - intros (k & <- & Hk). apply in_seq in Hk. lia.
  - intros H. exists (N.to_nat p). rewrite N2Nat.id. split; [reflexivity|]. apply in_seq. lia.
Qed.
Lemma range_length a b : List.length (range a b) = N.to_nat (b - a).
Proof. unfold range. now rewrite map_length, seq_length. Qed.

(** The loop: it executes the partitions of the request in order, up to the end of the plan, and stops at the first that
    fails. *)
Lemma execute_from_spec : forall fuel st a b, (N.to_nat partition_count < fuel + N.to_nat a)%nat -> (0 < fuel)%nat ->
  match execute_from fuel st a b with
  | (st', Ok l) => (b <= partition_count \/ b <= a) /\ executes st (range a b) st' l
  | (st', Err e) => (e = "partition not available"%string /\ partition_count < b /\ a < b /\
                      exists l, executes st (range a partition_count) st' l) \/
                    exists p st1 l, a <= p < b /\ p < partition_count /\ executes st (range a p) st1 l /\ execute st1 p = (st', Err e)
  | (st', Panic e) => exists p st1 l, a <= p < b /\ p < partition_count /\ executes st (range a p) st1 l /\ execute st1 p = (st', Panic e)
  end.
Proof.
  induction fuel as [|fuel IH]; intros st a b Hf H0; [lia|]. cbn [ServeModel.execute_from].
  destruct (N.leb_spec b a) as [E1|E1].
  - rewrite range_empty by exact E1. split; [lia|constructor].
  - destruct (N.leb_spec partition_count a) as [E2|E2].
    + left. split; [reflexivity|]. split; [lia|]. split; [lia|]. exists []. rewrite range_empty by exact E2. constructor.
    + destruct (execute st a) as [st1 [s|e|e]] eqn:Ex.
      * specialize (IH st1 (a + 1) b ltac:(lia) ltac:(lia)).
        destruct (execute_from fuel st1 (a + 1) b) as [st2 [l|e|e]]; cbn [bind].
        -- destruct IH as [H1 H2]. split; [lia|]. rewrite range_step by exact E1. econstructor; eauto.
        -- destruct IH as [(He & H1 & H2 & l & H3)|(p & st3 & l & H1 & H2 & H3 & H4)].
           ++ left. split; [exact He|]. split; [exact H1|]. split; [lia|]. exists (s :: l). rewrite range_step by exact E2. econstructor; eauto.
           ++ right. exists p, st3, (s :: l). split; [lia|]. split; [exact H2|]. split; [|exact H4]. rewrite range_step by lia. econstructor; eauto.
        -- destruct IH as (p & st3 & l & H1 & H2 & H3 & H4).
           exists p, st3, (s :: l). split; [lia|]. split; [exact H2|]. split; [|exact H4]. rewrite range_step by lia. econstructor; eauto.
      * right. exists a, st, []. split; [lia|]. split; [exact E2|]. split; [|exact Ex]. rewrite range_empty by lia. constructor.
      * exists a, st, []. split; [lia|]. split; [exact E2|]. split; [|exact Ex]. rewrite range_empty by lia. constructor.
Qed.

(** Partitions that can be executed are. *)
Lemma execute_from_ok : forall fuel st a b st' l, (N.to_nat partition_count < fuel + N.to_nat a)%nat -> (0 < fuel)%nat -> b <= partition_count ->
  executes st (range a b) st' l -> execute_from fuel st a b = (st', Ok l).
Proof.
  induction fuel as [|fuel IH]; intros st a b st' l Hf H0 Hb Hx; [lia|]. cbn [ServeModel.execute_from].
  destruct (N.leb_spec b a) as [E1|E1].
  - rewrite range_empty in Hx by exact E1. inversion Hx; subst. reflexivity.
  - destruct (N.leb_spec partition_count a) as [E2|E2]; [lia|]. rewrite range_step in Hx by exact E1.
    inversion Hx as [|? ? st1 s ? ? l0 E H]; subst. rewrite E.
    rewrite (IH st1 (a + 1) b st' l0); [reflexivity|lia|lia|exact Hb|exact H].
Qed.

Lemma executes_length st ps st' l : executes st ps st' l -> List.length ps = List.length l.
Proof. induction 1; cbn; congruence. Qed.

Lemma executes_fun st ps st1 l1 st2 l2 : executes st ps st1 l1 -> executes st ps st2 l2 -> st1 = st2 /\ l1 = l2.
Proof.
  intros H. revert st2 l2. induction H as [|st p sta s ps stb l E H IH]; intros st2 l2 H2; inversion H2; subst; [auto|].
  rewrite E in *. match goal with X : (_, _) = (_, _) |- _ => injection X as <- <- end.
  destruct (IH _ _ ltac:(eassumption)) as [-> ->]. auto.
Qed.
End Proofs.

(** ** Streams that are handed out once *)

Section Sampled.
Context {stream : Type}.
Variable streams : N -> stream.

Lemma sampler_some st p st1 s : sampler_execute streams st p = (st1, Ok s) ->
  In p st /\ s = streams p /\ forall x, In x st1 <-> In x st /\ x <> p.
Proof.
  unfold sampler_execute. destruct (existsb (N.eqb p) st) eqn:E; [|discriminate]. intros H. injection H as <- <-.
  apply existsb_exists in E as (x & Hx & E). apply N.eqb_eq in E as <-. split; [exact Hx|]. split; [reflexivity|].
  intros x. rewrite filter_In. destruct (N.eqb_spec x p); cbn; intuition congruence.
Qed.

Lemma sampled st ps st' l : executes (sampler_execute streams) st ps st' l ->
  l = map streams ps /\ (forall p, In p ps -> In p st /\ ~ In p st') /\ (forall p, In p ps -> In p st).
Proof.
  assert (G : executes (sampler_execute streams) st ps st' l ->
    l = map streams ps /\ incl st' st /\ forall p, In p ps -> In p st /\ ~ In p st').
  { induction 1 as [st|st p st1 s ps st2 l Hx _ IH]; [split; [reflexivity|]; split; [apply incl_refl|intros p []]|].
    apply sampler_some in Hx as (Hp & -> & Hst). destruct IH as (-> & Hi & IH). split; [reflexivity|]. split.
    - intros x Hx. apply Hi in Hx. now apply Hst in Hx.
    - intros x [<-|Hx]; [split; [exact Hp|]|].
      + intros Hn. apply Hi in Hn. apply Hst in Hn. now destruct Hn.
      + destruct (IH x Hx) as [H1 H2]. split; [now apply Hst in H1|exact H2]. }
  intros H. destruct (G H) as (H1 & _ & H2). split; [exact H1|]. split; [exact H2|]. intros p Hp. now apply H2.
Qed.

Lemma sampler_shrinks st p st1 r : sampler_execute streams st p = (st1, r) -> incl st1 st.
Proof.
  unfold sampler_execute. destruct (existsb (N.eqb p) st); intros H; injection H as <- <-; [|apply incl_refl].
  intros x Hx. now apply filter_In in Hx.
Qed.
Lemma from_shrinks P : forall fuel st a b st1 r, ServeModel.execute_from P (sampler_execute streams) fuel st a b = (st1, r) -> incl st1 st.
Proof.
  induction fuel as [|fuel IH]; intros st a b st1 r H; cbn [ServeModel.execute_from] in H; [injection H as <- _; apply incl_refl|].
  destruct (b <=? a); [injection H as <- _; apply incl_refl|]. destruct (P <=? a); [injection H as <- _; apply incl_refl|].
  destruct (sampler_execute streams st a) as [st2 [s|e|e]] eqn:E; apply sampler_shrinks in E; [|injection H as <- _; exact E..].
  destruct (ServeModel.execute_from _ _ fuel st2 (a + 1) b) as [st3 x] eqn:E3. injection H as <- _.
  eapply incl_tran; [|exact E]. eapply IH; eauto.
Qed.
Lemma serve_shrinks checks alloc P c st a b st1 x : serve checks alloc P (sampler_execute streams) c st a b = (st1, x) -> incl st1 st.
Proof.
  unfold serve, execute_task. destruct (usize_sub checks b a) as [n|e|e]; [|intros H; injection H as <- _; apply incl_refl..].
  destruct (with_capacity alloc n); [|intros H; injection H as <- _; apply incl_refl..].
  destruct (execute_from P _ _ st a b) as [st2 [l|e|e]] eqn:E; apply from_shrinks in E; [|intros H; injection H as <- _; exact E..].
  destruct (known_compression c); intros H; injection H as <- _; exact E.
Qed.
End Sampled.
