(** Reading arbitrary bytes does not panic when the tags listed at every oneof are tags of its enum. *)
From Verif Require Import Base WireModel WireSpec CiuModel.
From Coq Require Import NArith Lia.
Local Open Scope N_scope.

Definition no_panic {A} (r : Res A) : Prop := forall s, r <> Panic s.
Lemma no_panic_ok {A} (a : A) : no_panic (Ok a). Proof. intros s; discriminate. Qed.
Lemma no_panic_err {A} e : no_panic (Err (A := A) e). Proof. intros s; discriminate. Qed.
Lemma no_panic_bind {A B} (r : Res A) (f : A -> Res B) : no_panic r -> (forall a, r = Ok a -> no_panic (f a)) -> no_panic (let* x := r in f x).
Proof. intros Hr Hf s. destruct r as [a|e|p]; cbn [bind]; [now apply Hf|discriminate|now contradiction (Hr p)]. Qed.

Section Panic.
Variable name : Type.
Variable fields_of : name -> list (field name).
Variable utf8 : list N -> bool.
(** Messages all of whose oneofs, and those inside, list only tags of their enum. *)
Variable good : name -> Prop.
Definition field_good (f : field name) : Prop :=
  let of_ty t := match t with TMsg n => good n | _ => True end in
  match f with
  | Implicit _ t | Optional _ t | Repeated _ t => of_ty t
  | Oneof tags vs => Forall (fun tag => exists t, find (fun x => fst x =? tag) vs = Some (tag, t)) tags /\ Forall (fun x => of_ty (snd x)) vs
  end.
Hypothesis closed : forall n, good n -> Forall field_good (fields_of n).

Lemma varint_no_panic k : forall bs, no_panic (get_varint k bs).
Proof.
  induction k as [|k IH]; intros [|b bs]; cbn [get_varint]; try apply no_panic_err.
  destruct (b <? 128); [destruct ((k =? 0)%nat && (2 <=? b)); [apply no_panic_err|apply no_panic_ok]|].
  apply no_panic_bind; [apply IH|intros; apply no_panic_ok].
Qed.
Lemma le_no_panic k : forall bs, no_panic (get_le k bs).
Proof. induction k as [|k IH]; intros bs; cbn [get_le]; [apply no_panic_ok|]. destruct bs; [apply no_panic_err|]. apply no_panic_bind; [apply IH|intros; apply no_panic_ok]. Qed.
Lemma len_no_panic bs : no_panic (get_len bs).
Proof. apply no_panic_bind; [apply varint_no_panic|]. intros r _. destruct (_ <? _); [apply no_panic_err|apply no_panic_ok]. Qed.
Lemma key_no_panic bs : no_panic (decode_key bs).
Proof. apply no_panic_bind; [apply varint_no_panic|]. intros r _. repeat match goal with |- context [if ?c then _ else _] => destruct c end; first [apply no_panic_err|apply no_panic_ok]. Qed.
Lemma skip_no_panic w bs : no_panic (skip w bs).
Proof.
  unfold skip. repeat match goal with |- context [if ?c then _ else _] => destruct c end; try apply no_panic_err;
    (apply no_panic_bind; [first [apply varint_no_panic|apply le_no_panic|apply len_no_panic]|intros; apply no_panic_ok]).
Qed.

Notation content := (list (N * value name)).
Lemma value_no_panic (sub : name -> list content -> list N -> Res (list content)) t old w bs :
  match t with TMsg n => forall st bs, no_panic (sub n st bs) | _ => True end -> no_panic (read_value name fields_of utf8 sub t old w bs).
Proof.
  intros HS. unfold read_value. destruct (negb _); [apply no_panic_err|].
  destruct t; try (apply no_panic_bind; [first [apply varint_no_panic|apply le_no_panic|apply len_no_panic]|intros; try apply no_panic_ok]).
  - destruct (utf8 _); [apply no_panic_ok|apply no_panic_err].
  - apply no_panic_bind; [apply HS|intros; apply no_panic_ok].
Qed.
Lemma packed_no_panic t tag : packed name t = true -> forall fuel bs, no_panic (read_packed name fields_of utf8 fuel t tag bs).
Proof.
  intros HP. induction fuel as [|fuel IH]; intros [|b bs]; cbn [read_packed]; try apply no_panic_ok; try apply no_panic_err.
  apply no_panic_bind; [apply value_no_panic; now destruct t|]. intros r _. apply no_panic_bind; [apply IH|intros; apply no_panic_ok].
Qed.
Lemma find_field_spec tag fs : forall i f, find_field name tag fs = Some (i, f) -> In f fs /\ has_tag name tag f = true.
Proof.
  induction fs as [|f0 fs IH]; intros i f H; cbn [find_field] in H; [discriminate|]. destruct (has_tag name tag f0) eqn:E.
  - injection H as _ <-. split; [now left|exact E].
  - destruct (find_field name tag fs) as [[j g]|]; [|discriminate]. injection H as _ <-. destruct (IH j g eq_refl). split; [now right|assumption].
Qed.
Lemma field_no_panic (sub : name -> list content -> list N -> Res (list content)) f tag w old bs :
  (forall n st bs, good n -> no_panic (sub n st bs)) -> field_good f -> has_tag name tag f = true -> no_panic (read_field name fields_of utf8 sub f tag w old bs).
Proof.
  intros HS HF HT. destruct f as [t0 t|t0 t|t0 t|tags vs]; cbn [read_field field_good has_tag] in *.
  - apply no_panic_bind; [apply value_no_panic; destruct t; auto|intros; apply no_panic_ok].
  - apply no_panic_bind; [apply value_no_panic; destruct t; auto|intros; apply no_panic_ok].
  - destruct (packed name t && (w =? 2)) eqn:EP.
    + apply andb_true_iff in EP as [EP _]. apply no_panic_bind; [apply len_no_panic|]. intros r _.
      apply no_panic_bind; [now apply packed_no_panic|intros; apply no_panic_ok].
    + apply no_panic_bind; [apply value_no_panic; destruct t; auto|intros; apply no_panic_ok].
  - destruct HF as [HF HV]. apply existsb_exists in HT as (x & Hx & E). apply N.eqb_eq in E. subst x.
    rewrite Forall_forall in HF, HV. destruct (HF tag Hx) as (t & Et). rewrite Et. apply find_some in Et as [Et _]. specialize (HV _ Et). cbn [snd] in HV.
    apply no_panic_bind; [apply value_no_panic; destruct t; auto|intros; apply no_panic_ok].
Qed.
Lemma fields_no_panic (sub : name -> list content -> list N -> Res (list content)) fs : (forall n st bs, good n -> no_panic (sub n st bs)) -> Forall field_good fs ->
  forall fuel st bs, no_panic (read_fields name fields_of utf8 fuel sub fs st bs).
Proof.
  intros HS HF. induction fuel as [|fuel IH]; intros st [|b bs]; cbn [read_fields]; try apply no_panic_ok; try apply no_panic_err.
  apply no_panic_bind; [apply key_no_panic|]. intros [[tag w] bs'] _. destruct (find_field name tag fs) as [[i f]|] eqn:EF.
  - apply find_field_spec in EF as [Hin HT]. rewrite Forall_forall in HF. apply no_panic_bind; [apply field_no_panic; auto|]. intros; apply IH.
  - apply no_panic_bind; [apply skip_no_panic|]. intros; apply IH.
Qed.
Lemma message_no_panic d : forall n st bs, good n -> no_panic (read_message name fields_of utf8 d n st bs).
Proof.
  induction d as [|d IH]; intros n st bs Hn; cbn [read_message]; apply fields_no_panic; auto. intros; apply no_panic_err.
Qed.
Theorem decode_no_panic n bs : good n -> no_panic (decode name fields_of utf8 n bs).
Proof. intros H. now apply message_no_panic. Qed.

(** ** Where reading can panic *)
Definition suffix_of (rest bs : list N) : Prop := exists pre, bs = pre ++ rest.
Lemma suffix_refl bs : suffix_of bs bs. Proof. now exists []. Qed.
Lemma suffix_trans a b c : suffix_of a b -> suffix_of b c -> suffix_of a c.
Proof. intros (x & ->) (y & ->). exists (y ++ x). apply app_assoc. Qed.
Lemma suffix_cons x a b : suffix_of a b -> suffix_of a (x :: b).
Proof. intros (p & ->). now exists (x :: p). Qed.
Lemma bind_ok {A B} (r : Res A) (f : A -> Res B) b : (let* x := r in f x) = Ok b -> exists a, r = Ok a /\ f a = Ok b.
Proof. destruct r as [a|e|e]; cbn [bind]; intros H; [eauto|discriminate|discriminate]. Qed.
Lemma varint_suffix k : forall bs r, get_varint k bs = Ok r -> suffix_of (snd r) bs.
Proof.
  induction k as [|k IH]; intros [|b bs] r H; cbn [get_varint] in H; try discriminate.
  destruct (b <? 128); [destruct ((k =? 0)%nat && (2 <=? b)); [discriminate|]; injection H as <-; apply suffix_cons, suffix_refl|].
  apply bind_ok in H as (x & Hx & [= <-]). apply suffix_cons. exact (IH _ _ Hx).
Qed.
Lemma le_suffix k : forall bs r, get_le k bs = Ok r -> suffix_of (snd r) bs.
Proof.
  induction k as [|k IH]; intros bs r H; cbn [get_le] in H; [injection H as <-; apply suffix_refl|]. destruct bs as [|b bs]; [discriminate|].
  apply bind_ok in H as (x & Hx & [= <-]). apply suffix_cons. exact (IH _ _ Hx).
Qed.
Lemma len_suffix bs r : get_len bs = Ok r -> suffix_of (snd r) bs.
Proof.
  intros H. apply bind_ok in H as (x & Hx & H). destruct (_ <? _); [discriminate|]. injection H as <-. cbn [snd].
  eapply suffix_trans; [|exact (varint_suffix _ _ _ Hx)]. exists (firstn (N.to_nat (fst x)) (snd x)). now rewrite firstn_skipn.
Qed.
Lemma key_suffix bs tag w rest : decode_key bs = Ok (tag, w, rest) -> suffix_of rest bs.
Proof.
  intros H. apply bind_ok in H as (x & Hx & H). repeat match type of H with (if ?c then _ else _) = _ => destruct c; [discriminate|] end.
  injection H as _ _ <-. exact (varint_suffix _ _ _ Hx).
Qed.
Lemma skip_suffix w bs rest : skip w bs = Ok rest -> suffix_of rest bs.
Proof.
  unfold skip. intros H. repeat match type of H with (if ?c then _ else _) = _ => destruct c end; try discriminate;
    apply bind_ok in H as (x & Hx & [= <-]); first [exact (varint_suffix _ _ _ Hx)|exact (le_suffix _ _ _ Hx)|exact (len_suffix _ _ Hx)].
Qed.
Lemma value_suffix (sub : name -> list content -> list N -> Res (list content)) t old w bs r :
  read_value name fields_of utf8 sub t old w bs = Ok r -> suffix_of (snd r) bs.
Proof.
  unfold read_value. intros H. destruct (negb _); [discriminate|].
  destruct t; apply bind_ok in H as (x & Hx & H); try (destruct (utf8 _); [|discriminate]); try (apply bind_ok in H as (y & Hy & H));
    injection H as <-; first [exact (varint_suffix _ _ _ Hx)|exact (le_suffix _ _ _ Hx)|exact (len_suffix _ _ Hx)].
Qed.

(** A message that has one field, a oneof, whose messages are good: reading it panics only at a key of one of
    the listed tags that are not tags of the enum. *)
Lemma oneof_panics (sub : name -> list content -> list N -> Res (list content)) tags vs :
  (forall n st bs, good n -> no_panic (sub n st bs)) -> Forall (fun x => match snd x with TMsg n => good n | _ => True end) vs ->
  forall fuel st bs s, read_fields name fields_of utf8 fuel sub [Oneof tags vs] st bs = Panic s ->
  s = "internal error: entered unreachable code: invalid tag"%string /\
  exists tag w at_key rest, suffix_of at_key bs /\ decode_key at_key = Ok (tag, w, rest) /\ In tag tags /\ ~ In tag (map fst vs).
Proof.
  intros HS HV. induction fuel as [|fuel IH]; intros st [|b bs] s H; cbn [read_fields] in H; try discriminate.
  destruct (decode_key (b :: bs)) as [[[tag w] bs']|e|e] eqn:EK; cbn [bind] in H; [|discriminate|now contradiction (key_no_panic (b :: bs) e)].
  pose proof (key_suffix _ _ _ _ EK) as S1. cbn [find_field] in H. destruct (has_tag name tag (Oneof tags vs)) eqn:HT.
  - cbn [read_field] in H. destruct (find _ vs) as [[t0 t]|] eqn:Ef.
    + set (old := match nth 0 st [] with [] => _ | _ => _ end) in H.
      destruct (read_value name fields_of utf8 sub t old w bs') as [r|e|e] eqn:Er; cbn [bind] in H; [|discriminate|].
      * destruct (IH _ _ _ H) as (-> & tag' & w' & k & rest & S2 & HK). split; [reflexivity|]. exists tag', w', k, rest.
        split; [|exact HK]. eapply suffix_trans; [exact S2|]. eapply suffix_trans; [exact (value_suffix _ _ _ _ _ _ Er)|exact S1].
      * exfalso. revert Er. apply value_no_panic. apply find_some in Ef as [Ef _]. rewrite Forall_forall in HV. specialize (HV _ Ef). cbn [snd] in HV. destruct t; auto.
    + injection H as <-. split; [reflexivity|]. exists tag, w, (b :: bs), bs'. split; [apply suffix_refl|]. split; [exact EK|].
      cbn [has_tag] in HT. apply existsb_exists in HT as (x & Hx & E). apply N.eqb_eq in E. subst x. split; [exact Hx|].
      intros Hin. apply in_map_iff in Hin as (x & Ex & Hin). pose proof (find_none _ _ Ef _ Hin) as F. cbn beta in F. rewrite Ex, N.eqb_refl in F. discriminate.
  - destruct (skip w bs') as [rest|e|e] eqn:Es; cbn [bind] in H; [|discriminate|now contradiction (skip_no_panic w bs' e)].
    destruct (IH _ _ _ H) as (-> & tag' & w' & k & rest' & S2 & HK). split; [reflexivity|]. exists tag', w', k, rest'.
    split; [|exact HK]. eapply suffix_trans; [exact S2|]. eapply suffix_trans; [exact (skip_suffix _ _ _ Es)|exact S1].
Qed.
End Panic.
