(** Proofs about headers. *)
From Verif Require Import Base HeaderModel HeaderSpec.
From Coq Require Import Ascii String NArith DecimalString DecimalN.
Local Open Scope string_scope.

(** ** Strings *)

Lemma strip_app p s : strip_prefix p (p ++ s) = Some s.
Proof. induction p as [|a p IH]; cbn; [reflexivity|]. now rewrite Ascii.eqb_refl. Qed.
Lemma strip_inv p : forall s r, strip_prefix p s = Some r -> s = p ++ r.
Proof.
  induction p as [|a p IH]; intros s r H; cbn in H; [now injection H as ->|]. destruct s as [|b s]; [discriminate|].
  destruct (Ascii.eqb_spec a b) as [-> |]; [|discriminate]. cbn. f_equal. now apply IH.
Qed.
Lemma starts_app p s : starts_with p (p ++ s) = true.
Proof. unfold starts_with. now rewrite strip_app. Qed.
Lemma trim_none n p s : starts_with p s = false -> trim_n n p s = s.
Proof. unfold starts_with. destruct n; cbn; [reflexivity|]. now destruct (strip_prefix p s). Qed.
Lemma trim_id p s : starts_with p s = false -> trim_start_matches p s = s.
Proof. apply trim_none. Qed.
Lemma length_app_s a b : String.length (a ++ b) = String.length a + String.length b.
Proof. induction a; cbn; congruence. Qed.
Lemma trim_once p s : p <> "" -> starts_with p s = false -> trim_start_matches p (p ++ s) = s.
Proof.
  intros Hp H. unfold trim_start_matches. destruct p as [|a p]; [congruence|].
  change (String.length (String a p ++ s)) with (S (String.length (p ++ s))). cbn [trim_n]. rewrite strip_app. now apply trim_none.
Qed.
Lemma app_s_assoc a b c : (a ++ b) ++ c = a ++ b ++ c.
Proof. induction a; cbn; congruence. Qed.
Lemma app_s_inj a : forall b c, a ++ b = a ++ c -> b = c.
Proof. induction a; cbn; intros b c H; [exact H|]. injection H as H. auto. Qed.
Lemma map_chars_app f a b : map_chars f (a ++ b) = map_chars f a ++ map_chars f b.
Proof. induction a; cbn; congruence. Qed.

(** ** Maps of headers *)

Lemma insert_in h k v n x : In (n, x) (insert h k v) <-> (n = k /\ x = v) \/ (n <> k /\ In (n, x) h).
Proof.
  unfold insert. rewrite in_app_iff, filter_In. cbn. destruct (String.eqb_spec n k) as [-> |Hn]; cbn.
  - split; [intros [[_ H]|[[= ->]|[]]]; [discriminate|auto]|intros [[_ ->]|[H _]]; [auto|congruence]].
  - split; [intros [[H _]|[[= -> ->]|[]]]; [auto|congruence]|intros [[-> _]|[_ H]]; [congruence|auto]].
Qed.
Lemma has_in h k : has h k = true <-> exists v, In (k, v) h.
Proof.
  unfold has. rewrite existsb_exists. split.
  - intros ([k' v] & Hin & E). apply String.eqb_eq in E. subst. eauto.
  - intros (v & H). exists (k, v). split; [exact H|apply String.eqb_refl].
Qed.
Lemma filter_all {A} (f : A -> bool) l : (forall x, In x l -> f x = true) -> filter f l = l.
Proof. induction l as [|a l IH]; cbn; intros H; [reflexivity|]. rewrite H by auto. f_equal. auto. Qed.

Lemma foldM_app {A B} (f : A -> B -> Res A) l1 l2 a : foldM f (l1 ++ l2)%list a = (let* b := foldM f l1 a in foldM f l2 b).
Proof. revert a. induction l1 as [|x l1 IH]; intros a; cbn; [reflexivity|]. destruct (f a x); cbn; auto. Qed.

(** ** Sending *)

Definition to_send (cfg : session) : list (string * (string * option string)) :=
  flat_map (fun '(Q, es) => if existsb (String.eqb Q) (prefixes cfg) then map (pair Q) es else []) (extensions cfg).
Definition send1 (h : headers) (qe : string * (string * option string)) : Res headers := send_entry (fst qe) h (snd qe).

Lemma send_flat cfg : get_config_extension_propagation_headers cfg = foldM send1 (to_send cfg) [].
Proof.
  unfold get_config_extension_propagation_headers. enough (G : forall h : headers, foldM (fun h '(prefix, es) => if existsb (String.eqb prefix) (prefixes cfg) then foldM (send_entry prefix) es h else Ok h) (extensions cfg) h = foldM send1 (to_send cfg) h) by apply G. unfold to_send.
  induction (extensions cfg) as [|[Q es] l IH]; intros h; cbn [foldM flat_map]; [reflexivity|]. rewrite foldM_app.
  assert (E : (if existsb (String.eqb Q) (prefixes cfg) then foldM (send_entry Q) es h else Ok h) =
    foldM send1 (if existsb (String.eqb Q) (prefixes cfg) then map (pair Q) es else []) h).
  { destruct (existsb _ _); [|reflexivity]. clear. revert h. induction es as [|e es IH]; intros h; cbn; [reflexivity|].
    unfold send1 at 1. cbn. destruct (send_entry Q h e); cbn; auto. }
  rewrite E. destruct (foldM send1 _ h); cbn; auto.
Qed.

Definition name_of (Q k : string) : string := FLIGHT_METADATA_CONFIG_PREFIX ++ Q ++ "." ++ k.

Lemma send_mem l : forall h h', foldM send1 l h = Ok h' ->
  (forall n v, In (n, v) h' -> In (n, v) h \/ exists Q k, In (Q, (k, Some v)) l /\ header_name (name_of Q k) = Ok n /\ header_value v = Ok v) /\
  (forall n v, (In (n, v) h \/ exists Q k, In (Q, (k, Some v)) l /\ header_name (name_of Q k) = Ok n) ->
     (forall Q k v', In (Q, (k, Some v')) l -> header_name (name_of Q k) = Ok n -> v' = v) -> In (n, v) h').
Proof.
  induction l as [|[Q [k [v0|]]] l IH]; intros h h' H.
  - injection H as <-. split; [auto|]. intros n v [H|(Q & k & [] & _)] _. exact H.
  - assert (Es : send1 h (Q, (k, Some v0)) = (let* name := header_name (name_of Q k) in let* value := header_value v0 in Ok (insert h name value))) by reflexivity.
    cbn [foldM] in H. rewrite Es in H.
    destruct (header_name (name_of Q k)) as [n0| |] eqn:En; cbn [bind] in H; try discriminate. unfold header_value in H.
    destruct (all_chars value_char v0) eqn:Ev; cbn [bind] in H; try discriminate. destruct (IH _ _ H) as [IH1 IH2]. split.
    + intros n v Hin. destruct (IH1 n v Hin) as [Hi|(Q' & k' & H1 & H2)].
      * apply insert_in in Hi as [[-> ->]|[_ Hi]]; [|auto]. right. exists Q, k. split; [now left|]. split; [exact En|]. unfold header_value. now rewrite Ev.
      * right. exists Q', k'. split; [now right|exact H2].
    + intros n v Hcase Hsame. apply IH2.
      * destruct (String.eqb_spec n n0) as [-> |Hn].
        -- left. apply insert_in. left. split; [reflexivity|]. symmetry. apply (Hsame Q k v0); [now left|exact En].
        -- destruct Hcase as [Hi|(Q' & k' & [[= -> -> ->]|Hi] & Hn')]; [left; apply insert_in; auto|congruence|right; eauto].
      * intros Q' k' v' Hi. apply (Hsame Q' k' v'). now right.
  - cbn in H. destruct (IH _ _ H) as [IH1 IH2]. split.
    + intros n v Hin. destruct (IH1 n v Hin) as [Hi|(Q' & k' & H1 & H2)]; [auto|]. right. exists Q', k'. split; [now right|exact H2].
    + intros n v Hcase Hsame. apply IH2.
      * destruct Hcase as [Hi|(Q' & k' & [Hi|Hi] & Hn')]; [auto|discriminate|right; eauto].
      * intros Q' k' v' Hi. apply (Hsame Q' k' v'). now right.
Qed.

Lemma to_send_in cfg Q e : In (Q, e) (to_send cfg) <-> exists es, In (Q, es) (extensions cfg) /\ In Q (prefixes cfg) /\ In e es.
Proof.
  unfold to_send. rewrite in_flat_map. split.
  - intros ([Q' es] & Hin & H). destruct (existsb (String.eqb Q') (prefixes cfg)) eqn:E; [|destruct H].
    apply in_map_iff in H as (e' & [= -> ->] & He). apply existsb_exists in E as (x & Hx & E). apply String.eqb_eq in E. subst x. eauto.
  - intros (es & H1 & H2 & H3). exists (Q, es). split; [exact H1|].
    assert (E : existsb (String.eqb Q) (prefixes cfg) = true) by (apply existsb_exists; exists Q; split; [exact H2|apply String.eqb_refl]).
    rewrite E. apply in_map_iff. eauto.
Qed.

Lemma header_name_flight Q k n : header_name (name_of Q k) = Ok n -> starts_with FLIGHT_METADATA_CONFIG_PREFIX n = true.
Proof.
  unfold header_name. destruct (_ && _); [|discriminate]. intros H. assert (E : n = map_chars lower (name_of Q k)) by congruence. rewrite E.
  unfold name_of. rewrite map_chars_app. apply starts_app.
Qed.

Lemma config_headers_flight cfg h n v : get_config_extension_propagation_headers cfg = Ok h -> In (n, v) h ->
  starts_with FLIGHT_METADATA_CONFIG_PREFIX n = true.
Proof.
  rewrite send_flat. intros H Hin. destruct (send_mem _ _ _ H) as [H1 _]. destruct (H1 n v Hin) as [[]|(Q & k & _ & Hn & _)].
  eapply header_name_flight; eauto.
Qed.

(** ** Reading *)

Lemma read_other T keys s n v : looks_like_option T n = false -> read_header T keys s (n, v) = Ok s.
Proof. unfold looks_like_option, read_header. cbn [fst snd]. now intros ->. Qed.
Lemma read_others T keys s h : (forall n v, In (n, v) h -> looks_like_option T n = false) -> foldM (read_header T keys) h s = Ok s.
Proof.
  intros H. induction h as [|[n v] h IH]; cbn [foldM]; [reflexivity|]. rewrite (read_other T keys s n v (H n v (or_introl eq_refl))). cbn [bind]. apply IH. intros n' v' Hin. exact (H n' v' (or_intror Hin)).
Qed.

(** The option that a header name stands for. *)
Definition option_of (T : extension) (keys : list string) (n : string) : option string :=
  if looks_like_option T n then
    let k := trim_start_matches (PREFIX T ++ ".") (trim_start_matches FLIGHT_METADATA_CONFIG_PREFIX n) in
    if existsb (String.eqb k) keys then Some k else None
  else None.

Lemma read_header_option T keys s n v : read_header T keys s (n, v) =
  match option_of T keys n with Some k => let* v := to_str v in set T s k v | None => Ok s end.
Proof. unfold read_header, option_of, looks_like_option. cbn [fst snd]. destruct (starts_with _ _); [|reflexivity]. now destruct (existsb _ _). Qed.

Lemma entries_det T ok s k v v' : lawful T ok -> ok s -> In (k, v) (entries T s) -> In (k, v') (entries T s) -> v = v'.
Proof.
  intros (_ & Hd & Hk & _) Hs H H'. rewrite <- (Hk s Hs) in Hd. revert Hd H H'. generalize (entries T s). clear.
  induction l as [|[a b] l IH]; cbn; [intros _ []|]. intros Hd [[= -> ->]|H] [[= ->]|H']; inversion Hd; subst; auto.
  - exfalso. apply H1. apply in_map_iff. now exists (k, v').
  - exfalso. match goal with X : ~ In _ _ |- _ => apply X end. apply in_map_iff. now exists (k, v).
Qed.

Lemma read_all T ok s keys : lawful T ok -> ok s -> forall h s1, ok s1 ->
  (forall n v k, In (n, v) h -> option_of T keys n = Some k -> In (k, Some v) (entries T s) /\ to_str v = Ok v) ->
  exists s', foldM (read_header T keys) h s1 = Ok s' /\ ok s' /\ forall k,
    (forall n v, In (n, v) h -> option_of T keys n = Some k -> In (k, Some v) (entries T s')) /\
    ((forall n v, In (n, v) h -> option_of T keys n <> Some k) -> forall v, In (k, v) (entries T s') <-> In (k, v) (entries T s1)).
Proof.
  intros HT Hs. induction h as [|[n v] h IH]; intros s1 Hs1 H.
  - exists s1. split; [reflexivity|]. split; [exact Hs1|]. intros k. split; [intros n v []|reflexivity].
  - cbn [foldM]. rewrite read_header_option. destruct (option_of T keys n) as [k0|] eqn:Eo.
    + destruct (H n v k0 (or_introl eq_refl) Eo) as [Hin Hv]. rewrite Hv. cbn.
      pose proof HT as (_ & _ & _ & Hset). destruct (Hset s s1 k0 v Hs Hs1 Hin) as (s2 & E2 & Hok2 & Hin2 & Hother). rewrite E2. cbn.
      destruct (IH s2 Hok2) as (s' & E' & Hok' & Hres); [intros; eapply H; [right; eauto|eauto]|].
      exists s'. split; [exact E'|]. split; [exact Hok'|]. intros k. destruct (Hres k) as [R1 R2]. split.
      * intros n' v' [[= <- <-]|Hin'] Eo'; [|eauto]. rewrite Eo in Eo'. injection Eo' as <-.
        (* later headers of the same option carry the same value *)
        assert (Hdec : (exists n' v', In (n', v') h /\ option_of T keys n' = Some k0) \/ (forall n' v', In (n', v') h -> option_of T keys n' <> Some k0)).
        { clear. induction h as [|[a b] h IH]; [right; intros n' v' []|]. destruct (option_of T keys a) as [k1|] eqn:E.
          - destruct (String.eqb_spec k1 k0) as [-> |Hne]; [left; exists a, b; split; [now left|exact E]|].
            destruct IH as [(n' & v' & Hi & Hx)|IH]; [left; exists n', v'; split; [now right|exact Hx]|].
            right. intros n' v' [[= <- <-]|Hi]; [congruence|eauto].
          - destruct IH as [(n' & v' & Hi & Hx)|IH]; [left; exists n', v'; split; [now right|exact Hx]|].
            right. intros n' v' [[= <- <-]|Hi]; [congruence|eauto]. }
        destruct Hdec as [(n' & v' & Hi & Hx)|Hno].
        -- pose proof (R1 n' v' Hi Hx) as R. destruct (H n' v' k0 (or_intror Hi) Hx) as [Hv' _].
           pose proof (entries_det T ok s k0 _ _ HT Hs Hv' Hin) as Ex. injection Ex as ->. exact R.
        -- apply (R2 Hno). exact Hin2.
      * intros Hno v'. rewrite R2 by (intros n' x Hi; eapply Hno; right; eauto). apply Hother. intros ->.
        apply (Hno n v (or_introl eq_refl)). exact Eo.
    + cbn. destruct (IH s1 Hs1) as (s' & E' & Hok' & Hres); [intros; eapply H; [right; eauto|eauto]|].
      exists s'. split; [exact E'|]. split; [exact Hok'|]. intros k. destruct (Hres k) as [R1 R2]. split.
      * intros n' v' [[= <- <-]|Hin'] Eo'; [congruence|eauto].
      * intros Hno. apply R2. intros n' x Hi. eapply Hno. right; eauto.
Qed.

Lemma prefix_dot_nonempty p : p ++ "." <> "".
Proof. destruct p; discriminate. Qed.

Lemma option_of_plain T keys k : plain_key T k -> In k keys -> option_of T keys (name_of (PREFIX T) k) = Some k.
Proof.
  intros (_ & H2 & H3) Hin. unfold option_of, looks_like_option, name_of. rewrite trim_once by (try discriminate; exact H3).
  replace (PREFIX T ++ "." ++ k) with ((PREFIX T ++ ".") ++ k) by apply app_s_assoc. rewrite starts_app.
  rewrite trim_once by (auto using prefix_dot_nonempty).
  assert (E : existsb (String.eqb k) keys = true) by (apply existsb_exists; exists k; split; [exact Hin|apply String.eqb_refl]). now rewrite E.
Qed.
Lemma plain_name T k : plain_key T k -> header_name (name_of (PREFIX T) k) = Ok (name_of (PREFIX T) k).
Proof. intros (H & _). exact H. Qed.

(** ** A plan's headers *)

Lemma passthrough_spec cfg p cfg' : set_passthrough_headers cfg p = Ok cfg' ->
  extensions cfg' = extensions cfg /\ prefixes cfg' = prefixes cfg /\ get_passthrough_headers cfg' = p /\
  forall n v, In (n, v) p -> starts_with FLIGHT_METADATA_CONFIG_PREFIX n = false.
Proof.
  unfold set_passthrough_headers. destruct (existsb _ p) eqn:E; [discriminate|]. intros H. assert (Ec : cfg' = mkSession (extensions cfg) (prefixes cfg) (Some p)) by congruence.
  rewrite Ec. repeat split. intros n v Hin. destruct (starts_with FLIGHT_METADATA_CONFIG_PREFIX n) eqn:Es; [|reflexivity].
  rewrite <- E. symmetry. apply existsb_exists. exists (n, v). auto.
Qed.
Lemma config_headers_same cfg cfg' : extensions cfg' = extensions cfg -> prefixes cfg' = prefixes cfg ->
  get_config_extension_propagation_headers cfg' = get_config_extension_propagation_headers cfg.
Proof. intros E1 E2. unfold get_config_extension_propagation_headers. now rewrite E1, E2. Qed.

Lemma plan_headers cfg p cfg' h : set_passthrough_headers cfg p = Ok cfg' -> plan_request_headers cfg' = Ok h ->
  exists h0, get_config_extension_propagation_headers cfg = Ok h0 /\ h = (h0 ++ p)%list.
Proof.
  intros Hp H. destruct (passthrough_spec _ _ _ Hp) as (E1 & E2 & E3 & E4). unfold plan_request_headers in H.
  rewrite (config_headers_same cfg cfg' E1 E2), E3 in H. destruct (get_config_extension_propagation_headers cfg) as [h0| |] eqn:Eh; cbn [bind] in H; try discriminate.
  exists h0. split; [reflexivity|]. unfold extend in H. rewrite filter_all in H; [congruence|]. intros [n v] Hin. apply negb_true_iff.
  destruct (has p n) eqn:En; [|reflexivity]. apply has_in in En as (v' & Hv). pose proof (E4 n v' Hv). pose proof (config_headers_flight cfg h0 n v Eh Hin). congruence.
Qed.

Lemma passthrough_not_option T n : starts_with FLIGHT_METADATA_CONFIG_PREFIX n = false -> looks_like_option T n = starts_with (PREFIX T ++ ".") n.
Proof. intros H. unfold looks_like_option. now rewrite trim_id. Qed.

Lemma restored T ok s s0 cfg p cfg' h : lawful T ok -> ok s -> ok s0 ->
  In (PREFIX T, entries T s) (extensions cfg) -> (forall es, In (PREFIX T, es) (extensions cfg) -> es = entries T s) -> In (PREFIX T) (prefixes cfg) ->
  (forall k, In k (map fst (entries T (default T))) -> plain_key T k) ->
  (forall Q es k v n, In (Q, es) (extensions cfg) -> Q <> PREFIX T -> In (k, Some v) es -> header_name (name_of Q k) = Ok n -> looks_like_option T n = false) ->
  set_passthrough_headers cfg p = Ok cfg' -> (forall n v, In (n, v) p -> starts_with (PREFIX T ++ ".") n = false) ->
  plan_request_headers cfg' = Ok h ->
  exists s', from_headers T s0 h = Ok s' /\ ok s' /\ forall k,
    (forall v, In (k, Some v) (entries T s) -> In (k, Some v) (entries T s')) /\
    (In (k, None) (entries T s) -> forall v, In (k, v) (entries T s') <-> In (k, v) (entries T s0)).
Proof.
  intros HT Hs Hs0 Hin Huniq Hpre Hplain Hothers Hp Hfree Hh. destruct (plan_headers _ _ _ _ Hp Hh) as (h0 & Eh0 & ->).
  destruct (passthrough_spec _ _ _ Hp) as (_ & _ & _ & Hnf). rewrite send_flat in Eh0. destruct (send_mem _ _ _ Eh0) as [M1 M2].
  pose proof HT as (_ & Hnd & Hkeys & _). unfold from_headers. rewrite (Hkeys s0 Hs0). set (keys := map fst (entries T (default T))) in *.
  assert (Hk : forall k v, In (k, v) (entries T s) -> In k keys) by (intros k v Hi; rewrite <- (Hkeys s Hs); apply in_map_iff; exists (k, v); auto).
  assert (Hmine : forall n v k, In (n, v) (h0 ++ p)%list -> option_of T keys n = Some k -> exists k0, In (k0, Some v) (entries T s) /\ n = name_of (PREFIX T) k0 /\ header_value v = Ok v).
  { intros n v k Hi Ho. apply in_app_iff in Hi as [Hi|Hi].
    - destruct (M1 n v Hi) as [[]|(Q & k0 & H1 & H2 & H3)]. apply to_send_in in H1 as (es & H1 & _ & H4).
      destruct (String.eqb_spec Q (PREFIX T)) as [-> |HQ].
      + pose proof (Huniq es H1) as ->. exists k0. split; [exact H4|]. split; [|exact H3]. rewrite (plain_name T k0 (Hplain k0 (Hk _ _ H4))) in H2. congruence.
      + pose proof (Hothers Q es k0 v n H1 HQ H4 H2) as X. unfold option_of in Ho. rewrite X in Ho. discriminate.
    - pose proof (passthrough_not_option T n (Hnf n v Hi)) as X. rewrite (Hfree n v Hi) in X. unfold option_of in Ho. rewrite X in Ho. discriminate. }
  destruct (read_all T ok s keys HT Hs (h0 ++ p)%list s0 Hs0) as (s' & E' & Hok' & Hres).
  { intros n v k Hi Ho. destruct (Hmine n v k Hi Ho) as (k0 & H1 & -> & H3). rewrite (option_of_plain T keys k0 (Hplain k0 (Hk _ _ H1)) (Hk _ _ H1)) in Ho.
    assert (k = k0) by congruence. subst k0. split; [exact H1|]. unfold header_value in H3. unfold to_str. destruct (all_chars value_char v); [reflexivity|discriminate]. }
  exists s'. split; [exact E'|]. split; [exact Hok'|]. intros k. destruct (Hres k) as [R1 R2]. split.
  - intros v Hv. apply (R1 (name_of (PREFIX T) k) v); [|exact (option_of_plain T keys k (Hplain k (Hk _ _ Hv)) (Hk _ _ Hv))].
    apply in_app_iff. left. apply M2.
    + right. exists (PREFIX T), k. split; [apply to_send_in; eauto|]. apply plain_name. exact (Hplain k (Hk _ _ Hv)).
    + intros Q k' v' Hi Hn. apply to_send_in in Hi as (es & H1 & _ & H4). destruct (String.eqb_spec Q (PREFIX T)) as [-> |HQ].
      * pose proof (Huniq es H1) as ->. rewrite (plain_name T k' (Hplain k' (Hk _ _ H4))) in Hn. assert (Hn' : name_of (PREFIX T) k' = name_of (PREFIX T) k) by congruence.
        unfold name_of in Hn'. apply app_s_inj in Hn'. rewrite <- !app_s_assoc in Hn'. apply app_s_inj in Hn'. subst k'.
        pose proof (entries_det T ok s k _ _ HT Hs H4 Hv). congruence.
      * pose proof (Hothers Q es k' v' _ H1 HQ H4 Hn) as X. unfold looks_like_option, name_of in X.
        destruct (Hplain k (Hk _ _ Hv)) as (_ & _ & H3). rewrite trim_once in X by (try discriminate; exact H3).
        rewrite <- app_s_assoc in X. rewrite starts_app in X. discriminate.
  - intros Hnone v. apply R2. intros n v' Hi Ho. destruct (Hmine n v' k Hi Ho) as (k0 & H1 & -> & H3).
    rewrite (option_of_plain T keys k0 (Hplain k0 (Hk _ _ H1)) (Hk _ _ H1)) in Ho. assert (k0 = k) by congruence. subst k0.
    pose proof (entries_det T ok s k _ _ HT Hs H1 Hnone). discriminate.
Qed.

(** ** DistributedConfig *)
Section Distributed.
Context {f64 : Type} (f64_text : f64 -> string) (f64_parse : string -> option f64).
Hypothesis f64_law : forall f, exists f', f64_parse (f64_text f) = Some f' /\ f64_text f' = f64_text f.
Notation text := (text f64_text).
Notation distributed := (distributed f64_text f64_parse).

Definition same_type (a b : @value f64) : Prop :=
  match a, b with
  | VUsize n, VUsize _ => (n < 2 ^ 64)%N
  | VF64 _, VF64 _ | VBool _, VBool _ | VString _, VString _ => True
  | _, _ => False
  end.
Definition typed_like (d c : @config f64) : Prop := Forall2 (fun x y => fst x = fst y /\ same_type (snd y) (snd x)) d c.

Lemma usize_roundtrip n : (n < 2 ^ 64)%N -> usize_parse (usize_text n) = Some n.
Proof.
  intros H. unfold usize_parse, usize_text. rewrite NilZero.usu.
  - rewrite DecimalN.Unsigned.of_to. now rewrite (proj2 (N.ltb_lt _ _) H).
  - unfold N.to_uint. destruct n; [discriminate|]. cbn. apply DecimalPos.Unsigned.to_uint_nonnil.
Qed.

Lemma parse_text d v v0 : same_type v d -> same_type v0 d -> exists v1, parse_like f64_parse v (text v0) = Some v1 /\ text v1 = text v0 /\ same_type v1 d.
Proof.
  destruct d, v, v0; cbn; try tauto; intros H H0.
  - rewrite usize_roundtrip by assumption. cbn. eauto.
  - destruct (f64_law f1) as (f' & E & Et). rewrite E. cbn. exists (VF64 f'). auto.
  - destruct b1; cbn; eauto.
  - eauto.
Qed.

Lemma set_typed d k v0 : forall c0 c, NoDup (map fst d) -> typed_like d c0 -> typed_like d c ->
  In (k, text v0) (map (fun '(k, v) => (k, text v)) c0) ->
  exists c', set_option f64_parse c k (text v0) = Ok c' /\ typed_like d c' /\ In (k, text v0) (map (fun '(k, v) => (k, text v)) c') /\
    forall k' t, k' <> k -> (In (k', t) (map (fun '(k, v) => (k, text v)) c') <-> In (k', t) (map (fun '(k, v) => (k, text v)) c)).
Proof.
  induction d as [|[kd vd] d IH]; intros c0 c Hnd H0 Hc Hin; [inversion H0; subst; destruct Hin|].
  destruct c0 as [|[k1 v1] l']; [inversion H0|]. destruct c as [|[k2 v2] l'0]; [inversion Hc|].
  assert (A0 : (kd = k1 /\ same_type v1 vd) /\ typed_like d l') by (inversion H0; auto).
  assert (Ac : (kd = k2 /\ same_type v2 vd) /\ typed_like d l'0) by (inversion Hc; auto).
  destruct A0 as [[<- T1] H3], Ac as [[<- T2] H5]. cbn in Hnd. assert (H2 : ~ In kd (map fst d)) by (inversion Hnd; auto).
  assert (H6 : NoDup (map fst d)) by (inversion Hnd; auto). cbn [map] in Hin. cbn [set_option map]. destruct Hin as [Hin|Hin]; [injection Hin as -> Ht|].
  - rewrite String.eqb_refl. destruct (parse_text vd v2 v1 T2 T1) as (v3 & E & Et & T3). rewrite <- Ht, E. eexists. split; [reflexivity|]. split; [|split].
    + constructor; [cbn; auto|assumption].
    + cbn. rewrite Et, Ht. now left.
    + cbn. intros k' t Hk. split; (intros [X|X]; [congruence|auto]).
  - assert (Hk : kd <> k).
    { intros ->. apply H2. assert (Hm : map fst d = map fst l') by (clear -H3; induction H3 as [|? ? ? ? [E _]]; cbn; congruence).
      rewrite Hm. apply in_map_iff in Hin as ([k3 v3] & [= -> _] & Hi). apply in_map_iff. now exists (k, v3). }
    destruct (String.eqb_spec kd k); [congruence|]. destruct (IH l' l'0) as (c' & E & T & I1 & I2); auto.
    rewrite E. cbn. eexists. split; [reflexivity|]. split; [|split].
    + constructor; [cbn; auto|exact T].
    + cbn. now right.
    + cbn. intros k' t Hk'. rewrite I2 by exact Hk'. reflexivity.
Qed.

Lemma default_typed factor : typed_like (distributed_default factor) (distributed_default factor).
Proof. repeat constructor. Qed.
Lemma typed_keys d c : typed_like d c -> map fst c = map fst d.
Proof. induction 1 as [|? ? ? ? [E _]]; cbn; congruence. Qed.

Lemma distributed_lawful factor : lawful (distributed factor) (typed_like (distributed_default factor)).
Proof.
  assert (Hm : forall c : @config f64, map fst (map (fun '(k, v) => (k, Some (text v))) c) = map fst c).
  { intros c. rewrite map_map. apply map_ext. now intros [? ?]. }
  assert (Hnd : NoDup (map fst (distributed_default factor))).
  { cbn [map fst distributed_default]. repeat (constructor; [cbn; intuition discriminate|]). constructor. }
  assert (Hmm : forall (c : @config f64) k t, In (k, Some t) (map (fun '(k, v) => (k, Some (text v))) c) <-> In (k, t) (map (fun '(k, v) => (k, text v)) c)).
  { intros c k t. rewrite !in_map_iff. split; intros ([k0 v0] & E & Hi); injection E as -> <-; exists (k, v0); auto. }
  split; [apply default_typed|]. split; [|split].
  - cbn [entries distributed default]. rewrite Hm. exact Hnd.
  - intros s Hs. cbn [entries distributed default]. rewrite !Hm. now apply typed_keys.
  - intros s0 s k v H0 Hs Hin. cbn [entries distributed set] in *. apply Hmm in Hin. pose proof Hin as Hin'. apply in_map_iff in Hin' as ([k0 v0] & E & _).
    injection E as -> <-. destruct (set_typed _ k v0 s0 s Hnd H0 Hs Hin) as (c' & E & T & I1 & I2). exists c'. split; [exact E|]. split; [exact T|]. split; [now apply Hmm|].
    intros k' v' Hk. destruct v' as [t|]; [rewrite !Hmm; now apply I2|]. split; intros X; apply in_map_iff in X as ([? ?] & E' & _); discriminate.
Qed.

Lemma distributed_plain factor k : In k (map fst (entries (distributed factor) (default (distributed factor)))) -> plain_key (distributed factor) k.
Proof.
  intros H. cbn [entries distributed default distributed_default map fst] in H. unfold plain_key. cbn [PREFIX distributed].
  repeat (destruct H as [<-|H]; [repeat split; vm_compute; reflexivity|]). destruct H.
Qed.

Lemma same_entries (l l' : list (string * option string)) : map fst l' = map fst l -> NoDup (map fst l) ->
  (forall k v, In (k, v) l -> exists t, v = Some t) -> (forall k t, In (k, Some t) l -> In (k, Some t) l') -> l' = l.
Proof.
  revert l'. induction l as [|[k v] l IH]; intros [|[k' v'] l'] Hm Hnd Hs H; try discriminate; [reflexivity|].
  cbn in Hm. injection Hm as -> Hm. cbn in Hnd. inversion Hnd; subst. destruct (Hs k v (or_introl eq_refl)) as (t & ->).
  destruct (H k t (or_introl eq_refl)) as [[= ->]|Hi].
  - f_equal. apply IH; auto; [intros; eapply Hs; right; eauto|]. intros k0 t0 Hi0. destruct (H k0 t0 (or_intror Hi0)) as [[= <- <-]|X]; [|exact X].
    exfalso. apply H2. apply in_map_iff. now exists (k, Some t).
  - exfalso. apply H2. rewrite <- Hm. apply in_map_iff. now exists (k, Some t).
Qed.
End Distributed.
