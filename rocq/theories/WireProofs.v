(** Messages survive encoding and decoding. *)
From Verif Require Import Base CiuModel CiuProofs WireModel WireSpec.
From Coq Require Import NArith ZArith.
Local Open Scope N_scope.

Lemma put_varint_S k n : put_varint (S k) n = if n <? 128 then [n] else (n mod 128 + 128) :: put_varint k (n / 128).
Proof. reflexivity. Qed.
Lemma get_varint_S k b bs : get_varint (S k) (b :: bs) =
  if b <? 128 then if (Nat.eqb k 0) && (2 <=? b) then Err "invalid varint" else Ok (b, bs)
  else let* r := get_varint k bs in Ok (b - 128 + 128 * fst r, snd r).
Proof. reflexivity. Qed.
Lemma varint_back rest : forall k n, n < 2 ^ (7 * N.of_nat k + 1) -> (0 < k)%nat ->
  get_varint (S k) (put_varint (S k) n ++ rest) = Ok (n, rest) /\ put_varint (S k) n <> [].
Proof.
  assert (D : forall n, n mod 128 + 128 - 128 + 128 * (n / 128) = n).
  { intros n. rewrite N.add_sub, N.add_comm. symmetry. apply N.div_mod. discriminate. }
  induction k as [|k IH]; intros n Hn Hk; [lia|]. rewrite put_varint_S. destruct (N.ltb_spec n 128) as [Hs|Hs].
  - split; [|discriminate]. cbn [app get_varint]. apply N.ltb_lt in Hs. rewrite Hs. cbn [Nat.eqb andb]. reflexivity.
  - split; [|discriminate]. cbn [app]. remember (put_varint (S k) (n / 128)) as l eqn:El. rewrite get_varint_S.
    destruct (N.ltb_spec (n mod 128 + 128) 128) as [X|_]; [exfalso; clear - X; generalize dependent (n mod 128); intros; lia|].
    assert (Hd : n / 128 < 2 ^ (7 * N.of_nat k + 1)).
    { apply N.div_lt_upper_bound; [lia|]. replace 128 with (2 ^ 7) by reflexivity. rewrite <- N.pow_add_r.
      replace (7 + (7 * N.of_nat k + 1)) with (7 * N.of_nat (S k) + 1) by lia. exact Hn. }
    assert (E : get_varint (S k) (l ++ rest) = Ok (n / 128, rest)).
    { destruct k as [|k].
      - subst l. cbn [put_varint]. change (7 * N.of_nat 0 + 1) with 1 in Hd. change (2 ^ 1) with 2 in Hd.
        destruct (N.ltb_spec (n / 128) 128); [|lia]. cbn [app get_varint].
        destruct (N.ltb_spec (n / 128) 128); [|lia]. destruct (N.leb_spec 2 (n / 128)); [lia|]. reflexivity.
      - subst l. now apply IH; [|lia]. }
    rewrite E. cbn [bind fst snd]. now rewrite D.
Qed.
Lemma decode_encode_varint n rest : n < 2 ^ 64 -> decode_varint (encode_varint n ++ rest) = Ok (n, rest).
Proof. intros H. unfold decode_varint, encode_varint. apply (varint_back rest 9 n); [exact H|lia]. Qed.
Lemma encode_varint_not_nil n : encode_varint n <> [].
Proof. unfold encode_varint. cbn [put_varint]. destruct (n <? 128); discriminate. Qed.

Lemma le_back rest k : forall n, n < 256 ^ N.of_nat k -> get_le k (put_le k n ++ rest) = Ok (n, rest).
Proof.
  induction k as [|k IH]; intros n Hn; cbn [put_le get_le app].
  - change (256 ^ N.of_nat 0) with 1 in Hn. do 2 f_equal. lia.
  - rewrite IH.
    + cbn [bind fst snd]. pose proof (N.div_mod n 256 ltac:(lia)). do 2 f_equal. lia.
    + apply N.div_lt_upper_bound; [lia|]. rewrite <- N.pow_succ_r'. rewrite <- Nat2N.inj_succ. exact Hn.
Qed.

Lemma len_back l rest : N.of_nat (List.length l) < 2 ^ 64 -> get_len (put_len l ++ rest) = Ok (l, rest).
Proof.
  intros H. unfold get_len, put_len. rewrite <- app_assoc, decode_encode_varint by exact H. cbn [bind fst snd].
  rewrite app_length. destruct (N.ltb_spec (N.of_nat (List.length l + List.length rest)) (N.of_nat (List.length l))); [lia|].
  rewrite Nat2N.id, firstn_app, Nat.sub_diag, firstn_all, skipn_app, Nat.sub_diag, skipn_all. cbn [firstn skipn app]. now rewrite app_nil_r.
Qed.

Lemma key_back tag wire rest : 0 < tag < 2 ^ 29 -> wire <= 5 -> decode_key (encode_key tag wire ++ rest) = Ok (tag, wire, rest).
Proof.
  intros Ht Hw. unfold decode_key, encode_key. rewrite decode_encode_varint by lia. cbn [bind fst snd].
  assert (M : (tag * 8 + wire) mod 8 = wire).
  { rewrite N.add_comm, N.mod_add by lia. apply N.mod_small. lia. }
  assert (D : (tag * 8 + wire) / 8 = tag).
  { rewrite N.add_comm, N.div_add by lia. rewrite N.div_small by lia. lia. }
  rewrite M, D. destruct (N.leb_spec (2 ^ 32) (tag * 8 + wire)); [lia|]. destruct (N.ltb_spec 5 wire); [lia|].
  destruct (N.eqb_spec tag 0); [lia|]. reflexivity.
Qed.
Lemma key_not_nil tag wire : encode_key tag wire <> [].
Proof. apply encode_varint_not_nil. Qed.

Section ValueInd.
Variable name : Type.
Variable P : value name -> Prop.
Hypothesis (HV : forall n, P (Varint n)) (H64 : forall n, P (Fixed64 n)) (H32 : forall n, P (Fixed32 n)) (HB : forall l, P (Blob l))
  (HM : forall n cs, Forall (Forall (fun x => P (snd x))) cs -> P (Message n cs)).
Fixpoint value_rect_nested (v : value name) : P v :=
  match v with
  | Varint n => HV n | Fixed64 n => H64 n | Fixed32 n => H32 n | Blob l => HB l
  | Message n cs => HM n cs ((fix all (cs : list (content name)) : Forall (Forall (fun x => P (snd x))) cs :=
      match cs with
      | [] => Forall_nil _
      | c :: cs => Forall_cons c ((fix each (c : content name) : Forall (fun x => P (snd x)) c :=
          match c with [] => Forall_nil _ | x :: c => Forall_cons x (value_rect_nested (snd x)) (each c) end) c) (all cs)
      end) cs)
  end.
End ValueInd.

Section Wire.
Variable name : Type.
Variable fields_of : name -> list (field name).
Variable utf8 : list N -> bool.
Hypothesis apart : forall n, told_apart name (fields_of n).

Notation typed := (typed name fields_of utf8).
Notation field_typed := (field_typed name fields_of utf8).
Notation payload := (payload name fields_of).
Notation write_content := (write_content name fields_of).
Notation read_value := (read_value name fields_of utf8).
Notation read_field := (read_field name fields_of utf8).
Notation read_fields := (read_fields name fields_of utf8).
Notation read_message := (read_message name fields_of utf8).

Lemma wire_type_le (t : ty name) : wire_type name t <= 5.
Proof. destruct t; cbn; lia. Qed.

Lemma find_field_at tag fs : forall i f, NoDup (flat_map (tags_of name) fs) -> nth_error fs i = Some f -> In tag (tags_of name f) ->
  find_field name tag fs = Some (i, f).
Proof.
  assert (HT : forall f, has_tag name tag f = true <-> In tag (tags_of name f)).
  { intros [t ?|t ?|t ?|tags ?]; cbn [has_tag tags_of]; try (rewrite N.eqb_eq; cbn; intuition).
    rewrite existsb_exists. split; [intros (x & Hx & E); apply N.eqb_eq in E; now subst|intros H; exists tag; split; [exact H|apply N.eqb_refl]]. }
  induction fs as [|f0 fs IH]; intros [|i] f ND Hi Ht; cbn in Hi; try discriminate; cbn [find_field flat_map] in *.
  - injection Hi as <-. now rewrite (proj2 (HT f0) Ht).
  - destruct (has_tag name tag f0) eqn:E.
    + exfalso. apply HT in E. assert (In tag (flat_map (tags_of name) fs)).
      { apply in_flat_map. exists f. split; [eapply nth_error_In; eassumption|exact Ht]. }
      clear - ND E H. induction (tags_of name f0) as [|a l IHl]; [contradiction|]. cbn in ND. inversion ND; subst.
      destruct E as [->|E]; [apply H2; apply in_or_app; now right|now apply IHl].
    + rewrite (IH i f); [reflexivity| |assumption|assumption].
      clear - ND. induction (tags_of name f0) as [|a l IHl]; [assumption|]. cbn in ND. inversion ND. now apply IHl.
Qed.

(** Reading back what was written, for values with at most [d] levels. *)
Definition sub_of (d : nat) : name -> list (content name) -> list N -> Res (list (content name)) :=
  match d with O => fun _ _ _ => Err "recursion limit reached" | S d => read_message d end.
Definition back (v : value name) : Prop := forall d t rest, typed t v -> (levels name v <= d)%nat ->
  N.of_nat (List.length (payload v)) < 2 ^ 64 -> read_value (sub_of d) t None (wire_type name t) (payload v ++ rest) = Ok (v, rest).

Section Fields.
Variable (n : name) (d : nat).
Let fs := fields_of n.

Definition reads (st : list (content name)) (bs : list N) (r : Res (list (content name))) : Prop :=
  forall fuel, (List.length bs <= fuel)%nat -> read_fields fuel (sub_of d) fs st bs = r.

Lemma reads_piece i f tag wire body st rest c r : nth_error fs i = Some f -> In tag (tags_of name f) -> wire <= 5 ->
  read_field (sub_of d) f tag wire (nth i st []) (body ++ rest) = Ok (c, rest) ->
  reads (upd st i c) rest r -> reads st (encode_key tag wire ++ body ++ rest) r.
Proof.
  intros Hi Ht Hw Hr H fuel Hf. destruct (apart n) as [ND BT].
  assert (Bt : 0 < tag < 2 ^ 29).
  { rewrite Forall_forall in BT. apply BT. apply in_flat_map. exists f. split; [eapply nth_error_In; exact Hi|exact Ht]. }
  pose proof (key_not_nil tag wire) as K. destruct (encode_key tag wire) as [|b bs] eqn:E; [now destruct K|].
  rewrite !app_length in Hf. cbn [List.length] in Hf. destruct fuel as [|fuel]; [lia|].
  cbn [read_fields app]. change (b :: bs ++ body ++ rest) with ((b :: bs) ++ body ++ rest). rewrite <- E, key_back by assumption. cbn [bind].
  rewrite (find_field_at tag fs i f ND Hi Ht). rewrite Hr. cbn [bind fst snd]. apply H. lia.
Qed.

Lemma packed_back t tag c : packed name t = true -> Forall (fun x => fst x = tag /\ typed t (snd x)) c ->
  forall fuel, (List.length (flat_map (fun x => snd (snd x)) (write_content c)) <= fuel)%nat ->
  read_packed name fields_of utf8 fuel t tag (flat_map (fun x => snd (snd x)) (write_content c)) = Ok c.
Proof.
  intros HP. induction 1 as [|[tag' v] c [E Hv] Hc IH]; intros fuel Hf; [now destruct fuel|].
  cbn [fst snd] in *. subst tag'. cbn [write_content map flat_map fst snd] in *. fold (write_content c) in *.
  assert (NE : payload v <> [] /\ forall rest, read_value (fun _ _ _ => Err "unreachable") t None (wire_type name t) (payload v ++ rest) = Ok (v, rest)).
  { destruct t; try discriminate; inversion Hv; subst; cbn [WireModel.payload]; unfold WireModel.read_value; cbn [wire_type]; rewrite N.eqb_refl; cbn [negb].
    - split; [apply encode_varint_not_nil|]. intros rest. now rewrite decode_encode_varint.
    - split; [apply encode_varint_not_nil|]. intros rest. rewrite decode_encode_varint by (match goal with H : _ = 0 \/ _ = 1 |- _ => destruct H as [->| ->] end; reflexivity). cbn [bind fst snd]. match goal with H : _ = 0 \/ _ = 1 |- _ => destruct H as [->| ->] end; reflexivity.
    - split; [discriminate|]. intros rest. now rewrite le_back.
    - split; [discriminate|]. intros rest. now rewrite le_back. }
  destruct NE as [NE RB]. destruct (payload v) as [|b bs] eqn:E; [now destruct NE|].
  cbn [app List.length] in Hf. rewrite app_length in Hf. destruct fuel as [|fuel]; [lia|]. cbn [app read_packed].
  change (b :: bs ++ flat_map (fun x => snd (snd x)) (write_content c)) with ((b :: bs) ++ flat_map (fun x => snd (snd x)) (write_content c)).
  rewrite RB. cbn [bind fst snd]. rewrite IH by lia. reflexivity.
Qed.

Lemma upd_twice {A} (l : list A) i a b : upd (upd l i a) i b = upd l i b.
Proof. revert i. induction l as [|x l IH]; intros [|i]; cbn; [reflexivity..|]. now rewrite IH. Qed.
Lemma upd_nth_self {A} (l : list A) i a x : (i < List.length l)%nat -> nth i (upd l i a) x = a.
Proof.
  intros H. apply nth_error_nth. rewrite upd_nth. rewrite Nat.eqb_refl. apply nth_error_Some in H. now destruct (nth_error l i).
Qed.

Lemma reads_field i f st c r rest : nth_error fs i = Some f -> (i < List.length st)%nat -> nth i st [] = default_content name f ->
  field_typed f c -> Forall (fun x => back (snd x)) c -> Forall (fun x => (levels name (snd x) <= d)%nat) c ->
  N.of_nat (List.length (write_field name f (write_content c))) < 2 ^ 64 ->
  reads (upd st i c) rest r -> reads st (write_field name f (write_content c) ++ rest) r.
Proof.
  intros Hi HL HD HT HB HV HN H.
  assert (Same : c = default_content name f -> upd st i c = st).
  { intros E. rewrite E, <- HD. clear - HL. revert i HL. induction st as [|s st IH]; intros [|i] HL; cbn in *; try lia; [reflexivity|]. rewrite IH by lia. reflexivity. }
  inversion HT as [tag t v Hp Hz Hz' Hv|tag t|tag t v Hv|tag t c0 Hc|tags vs|tags vs tag t v Hf Ht Hv]; subst; cbn [write_field write_content map fst snd] in *.
  - destruct (is_default name v) eqn:Ed.
    + cbn [app]. rewrite <- Same; [exact H|]. cbn [default_content]. do 2 f_equal.
      destruct t; cbn in Hp; try contradiction; inversion Hv; subst; cbn in Ed |- *; try (apply N.eqb_eq in Ed; now subst);
        try (apply orb_true_iff in Ed as [Ed|Ed]; apply N.eqb_eq in Ed; subst; [reflexivity|contradiction]); destruct l; (reflexivity || discriminate).
    + unfold write_plain in *. cbn [flat_map fst snd] in *. rewrite app_nil_r in *. rewrite <- app_assoc. apply Forall_inv in HB, HV. cbn [snd] in *.
      eapply reads_piece; [exact Hi|now left|apply wire_type_le| |exact H]. cbn [WireModel.read_field]. rewrite HB; [reflexivity|assumption|assumption|].
      rewrite app_length in HN. lia.
  - cbn [app write_plain flat_map]. rewrite <- Same; [exact H|reflexivity].
  - unfold write_plain in *. cbn [flat_map fst snd] in *. rewrite app_nil_r in *. rewrite <- app_assoc. apply Forall_inv in HB, HV. cbn [snd] in *.
    eapply reads_piece; [exact Hi|now left|apply wire_type_le| |exact H]. cbn [WireModel.read_field]. rewrite HD. cbn [default_content hd_error option_map].
    rewrite HB; [reflexivity|assumption|assumption|]. rewrite app_length in HN. lia.
  - fold (write_content c) in *. destruct (packed name t) eqn:HP.
    + destruct (write_content c) as [|w ws] eqn:Ew.
      * destruct c; [|discriminate]. cbn [app]. rewrite <- Same; [exact H|reflexivity].
      * rewrite <- Ew in *. rewrite <- app_assoc. eapply reads_piece; [exact Hi|now left|lia| |exact H].
        cbn [WireModel.read_field]. rewrite HP. cbn [andb N.eqb]. rewrite HD. cbn [default_content app].
        rewrite app_length in HN. rewrite len_back by (unfold put_len in HN; rewrite app_length in HN; lia). cbn [bind fst snd].
        rewrite (packed_back t tag c HP Hc) by lia. reflexivity.
    + cbn [default_content] in HD.
      assert (G : forall done, nth i st [] = done -> (i < List.length st)%nat -> reads (upd st i (done ++ c)) rest r ->
                  reads st (write_plain name t (write_content c) ++ rest) r).
      { clear H HD Same. revert st HL. induction c as [|[tag' v] c IH]; intros st HL done HD _ H.
        - rewrite app_nil_r in H. cbn [write_content map write_plain flat_map app].
          replace (upd st i done) with st in H; [exact H|]. rewrite <- HD. clear - HL. revert i HL.
          induction st as [|s st IH]; intros [|i] HL; cbn in *; try lia; [reflexivity|]. rewrite <- IH by lia. reflexivity.
        - inversion Hc; subst. destruct H2 as [E Hv]. cbn [fst snd] in *. subst tag'. inversion HB; subst. inversion HV; subst. cbn [snd] in *.
          assert (HT' : field_typed (Repeated tag t) c) by (now constructor).
          unfold write_plain in *. cbn [write_content map flat_map fst snd] in *. fold (write_content c) in *. rewrite <- !app_assoc.
          rewrite !app_length in HN. eapply reads_piece; [exact Hi|now left|apply wire_type_le| |].
          + cbn [WireModel.read_field]. rewrite HP. cbn [andb]. rewrite H2; [reflexivity|assumption|assumption|lia].
          + cbn [fst snd]. eapply IH; try assumption.
            * lia.
            * rewrite upd_length. exact HL.
            * reflexivity.
            * now rewrite upd_length.
            * rewrite upd_nth_self by exact HL. rewrite upd_twice. rewrite <- app_assoc. exact H. }
      apply (G []); assumption.
  - cbn [app]. rewrite <- Same; [exact H|reflexivity].
  - rewrite Hf in *. unfold write_plain in *. cbn [flat_map fst snd] in *. rewrite app_nil_r in *. rewrite <- app_assoc. apply Forall_inv in HB, HV. cbn [snd] in *.
    eapply reads_piece; [exact Hi|exact Ht|apply wire_type_le| |exact H]. cbn [WireModel.read_field]. rewrite Hf, HD. cbn [default_content].
    rewrite HB; [reflexivity|assumption|assumption|]. rewrite app_length in HN. lia.
Qed.
Lemma reads_all cs : forall k st, (k + List.length cs = List.length fs)%nat -> List.length st = List.length fs ->
  Forall2 field_typed (skipn k fs) cs -> Forall (Forall (fun x => back (snd x))) cs -> Forall (Forall (fun x => (levels name (snd x) <= d)%nat)) cs ->
  (forall i, (k <= i)%nat -> nth i st [] = nth i (map (default_content name) fs) []) ->
  N.of_nat (List.length (write_fields name (skipn k fs) (map write_content cs))) < 2 ^ 64 ->
  reads st (write_fields name (skipn k fs) (map write_content cs)) (Ok (firstn k st ++ cs)).
Proof.
  induction cs as [|c cs IH]; intros k st HK HL HT HB HV HD HN.
  - inversion HT as [E|]; subst. cbn [write_fields map]. intros fuel _. destruct fuel; cbn [read_fields]; rewrite app_nil_r;
      rewrite firstn_all2; try reflexivity; cbn in HK; lia.
  - assert (Hk : (k < List.length fs)%nat) by (cbn in HK; lia).
    destruct (nth_error fs k) as [f|] eqn:Ef; [|apply nth_error_None in Ef; lia].
    assert (ES : skipn k fs = f :: skipn (S k) fs).
    { clear - Ef. revert k Ef. generalize fs. induction fs0 as [|f0 fs0 IH]; intros [|k] Ef; try discriminate; [now injection Ef as ->|]. now apply IH. }
    rewrite ES in *. inversion HT; subst. inversion HB; subst. inversion HV; subst. cbn [write_fields map] in *. rewrite app_length in HN.
    eapply reads_field; try eassumption; [lia| |lia|].
    { rewrite HD by lia. apply nth_error_nth. now apply map_nth_error. }
    replace (firstn k st ++ c :: cs) with (firstn (S k) (upd st k c) ++ cs).
    + apply IH; try assumption; [cbn in HK; lia|now rewrite upd_length| |lia].
      intros i Hi. rewrite <- HD by lia. assert (NK : (k =? i)%nat = false) by (apply Nat.eqb_neq; lia).
      destruct (Nat.lt_ge_cases i (List.length st)) as [L|L].
      * apply nth_error_nth'  with (d := []) in L. apply nth_error_nth. rewrite upd_nth, NK. exact L.
      * rewrite !nth_overflow; [reflexivity|assumption|now rewrite upd_length].
    + assert (Hk' : (k < List.length st)%nat) by lia. clear - Hk'. revert k Hk'.
      induction st as [|s st IH]; intros [|k] H; cbn in H; try lia; [reflexivity|]. cbn [upd firstn app]. f_equal. apply IH. lia.
Qed.

Lemma message_back cs : Forall2 field_typed fs cs -> Forall (Forall (fun x => back (snd x))) cs -> (inner_levels name cs <= d)%nat ->
  N.of_nat (List.length (write_fields name fs (map write_content cs))) < 2 ^ 64 ->
  read_message d n (default_message name fields_of n) (write_fields name fs (map write_content cs)) = Ok cs.
Proof.
  intros HT HB HV HN. assert (HL : List.length fs = List.length cs) by (clear - HT; induction HT; cbn; congruence).
  assert (HV' : Forall (Forall (fun x => (levels name (snd x) <= d)%nat)) cs).
  { unfold inner_levels in HV. clear - HV. induction cs as [|c cs IH]; constructor; cbn [fold_right] in HV; [|apply IH; lia].
    assert (HV' : (fold_right (fun x m => Nat.max (levels name (snd x)) m) 0%nat c <= d)%nat) by lia. clear - HV'.
    induction c as [|x c IH]; constructor; cbn [fold_right] in HV'; [lia|apply IH; lia]. }
  assert (R := reads_all cs 0 (default_message name fields_of n)). cbn [firstn skipn app Nat.add] in R.
  assert (E : read_message d n (default_message name fields_of n) (write_fields name fs (map write_content cs))
    = read_fields (List.length (write_fields name fs (map write_content cs))) (sub_of d) fs (default_message name fields_of n)
        (write_fields name fs (map write_content cs))) by (now destruct d).
  rewrite E. apply R; try assumption.
  - now symmetry.
  - unfold default_message. now rewrite map_length.
  - intros i _. reflexivity.
  - lia.
Qed.
End Fields.

Lemma all_back v : back v.
Proof.
  induction v as [m|m|m|l|n cs IH] using value_rect_nested; intros d t rest HT HV HN; inversion HT; subst; unfold WireModel.read_value;
    cbn [wire_type WireModel.payload]; rewrite N.eqb_refl; cbn [negb].
  - now rewrite decode_encode_varint.
  - rewrite decode_encode_varint; [cbn [bind fst snd]|]; match goal with H : _ = 0 \/ _ = 1 |- _ => destruct H as [->| ->] end; reflexivity.
  - now rewrite le_back.
  - now rewrite le_back.
  - rewrite len_back; [cbn [bind fst snd]|cbn [WireModel.payload] in HN; unfold put_len in HN; rewrite app_length in HN; lia].
    match goal with H : utf8 _ = true |- _ => rewrite H end. reflexivity.
  - rewrite len_back; [reflexivity|cbn [WireModel.payload] in HN; unfold put_len in HN; rewrite app_length in HN; lia].
  - rewrite len_back; [reflexivity|cbn [WireModel.payload] in HN; unfold put_len in HN; rewrite app_length in HN; lia].
  - cbn [WireModel.payload] in HN.
    change (map (map (fun x : N * value name => (fst x, (is_default name (snd x), payload (snd x))))) cs) with (map write_content cs) in *.
    assert (HN' : N.of_nat (List.length (write_fields name (fields_of n) (map write_content cs))) < 2 ^ 64).
    { unfold put_len in HN. rewrite app_length in HN. lia. }
    rewrite len_back by exact HN'. cbn [bind fst snd]. destruct d as [|d]; [cbn in HV; lia|]. cbn [sub_of].
    rewrite message_back; [reflexivity|assumption|assumption| |exact HN'].
    cbn [levels] in HV. unfold inner_levels. lia.
Qed.

Theorem decode_encode n cs : Forall2 field_typed (fields_of n) cs -> (inner_levels name cs <= 100)%nat ->
  N.of_nat (List.length (encode name fields_of n cs)) < 2 ^ 64 ->
  decode name fields_of utf8 n (encode name fields_of n cs) = Ok cs.
Proof.
  intros HT HV HN. unfold decode, encode in *. apply message_back; [assumption| |assumption|assumption].
  apply Forall_forall. intros c _. apply Forall_forall. intros x _. apply all_back.
Qed.
End Wire.
