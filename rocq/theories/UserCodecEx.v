(** An encoding of DataFusion's messages that is as assumed in UserCodecSpec, for the instances and the witnesses. *)
From Verif Require Import Base WireModel CodecModel CodecSpec UserCodecModel UserCodecSpec.
From Coq Require Import NArith Lia.
Local Open Scope N_scope.

Notation proto := (expr_proto N).
Definition len {A} (l : list A) : N := N.of_nat (List.length l).
Fixpoint flat (p : proto) : list N :=
  match p with
  | PBuiltin x l => 0 :: x :: len l :: flat_map flat l
  | PCall name d l =>
      1 :: len name :: name ++ match d with Some b => 1 :: len b :: b | None => [0] end ++ len l :: flat_map flat l
  | PExtExpr b l => 2 :: len b :: b ++ len l :: flat_map flat l
  end.
Definition take (n : N) (bs : list N) : list N * list N := (firstn (N.to_nat n) bs, skipn (N.to_nat n) bs).
Section Many.
Variable one : list N -> option (proto * list N).
Fixpoint many (n : nat) (bs : list N) : option (list proto * list N) :=
  match n with
  | O => Some ([], bs)
  | S n => match one bs with
           | Some (p, bs) => match many n bs with Some (l, bs) => Some (p :: l, bs) | None => None end
           | None => None
           end
  end.
Definition counted (bs : list N) : option (list proto * list N) :=
  match bs with n :: bs => many (N.to_nat n) bs | [] => None end.
End Many.
Fixpoint parse (fuel : nat) (bs : list N) : option (proto * list N) :=
  match fuel with
  | O => None
  | S fuel =>
      match bs with
      | 0 :: x :: bs => match counted (parse fuel) bs with Some (l, bs) => Some (PBuiltin x l, bs) | None => None end
      | 1 :: n :: bs =>
          let (name, bs) := take n bs in
          match bs with
          | 0 :: bs => match counted (parse fuel) bs with Some (l, bs) => Some (PCall name None l, bs) | None => None end
          | _ :: n :: bs =>
              let (b, bs) := take n bs in
              match counted (parse fuel) bs with Some (l, bs) => Some (PCall name (Some b) l, bs) | None => None end
          | _ => None
          end
      | _ :: n :: bs =>
          let (b, bs) := take n bs in
          match counted (parse fuel) bs with Some (l, bs) => Some (PExtExpr b l, bs) | None => None end
      | _ => None
      end
  end.
Fixpoint proto_ind' (P : proto -> Prop) (H1 : forall x l, Forall P l -> P (PBuiltin x l)) (H2 : forall n d l, Forall P l -> P (PCall n d l))
    (H3 : forall b l, Forall P l -> P (PExtExpr b l)) (p : proto) : P p :=
  let all := fix all (l : list proto) : Forall P l := match l with [] => Forall_nil _ | a :: l => Forall_cons a (proto_ind' P H1 H2 H3 a) (all l) end in
  match p with PBuiltin x l => H1 x l (all l) | PCall n d l => H2 n d l (all l) | PExtExpr b l => H3 b l (all l) end.

Lemma take_back b rest : take (len b) (b ++ rest) = (b, rest).
Proof.
  unfold take, len. rewrite Nat2N.id. rewrite firstn_app, skipn_app, Nat.sub_diag, firstn_all, skipn_all. cbn [firstn skipn app]. now rewrite app_nil_r.
Qed.
Definition back (p : proto) : Prop := forall fuel rest, (List.length (flat p) <= fuel)%nat -> parse fuel (flat p ++ rest) = Some (p, rest).
Lemma many_back l fuel rest : Forall back l -> (List.length (flat_map flat l) <= fuel)%nat -> counted (parse fuel) (len l :: flat_map flat l ++ rest) = Some (l, rest).
Proof.
  intros H HF. cbn [counted]. unfold len. rewrite Nat2N.id. revert HF. induction H as [|p l Hp H IH]; intros HF; [reflexivity|].
  cbn [flat_map List.length many] in *. rewrite app_length in HF. rewrite <- app_assoc, Hp by lia. now rewrite IH by lia.
Qed.
Lemma parse_back p : back p.
Proof.
  induction p as [x l IH|n d l IH|b l IH] using proto_ind'; intros fuel rest HF; cbn [flat] in *.
  - cbn [List.length] in HF. destruct fuel as [|fuel]; [lia|]. cbn [app parse]. rewrite many_back; [reflexivity|exact IH|lia].
  - cbn [List.length] in HF. rewrite !app_length in HF. destruct fuel as [|fuel]; [lia|]. cbn [app parse].
    rewrite <- !app_assoc. rewrite take_back. destruct d as [b|].
    + cbn [List.length] in HF. cbn [app]. rewrite take_back. rewrite many_back; [reflexivity|exact IH|lia].
    + cbn [List.length] in HF. cbn [app]. rewrite many_back; [reflexivity|exact IH|lia].
  - cbn [List.length] in HF. rewrite !app_length in HF. cbn [List.length] in HF. destruct fuel as [|fuel]; [lia|]. cbn [app parse].
    rewrite <- !app_assoc. rewrite take_back. cbn [app]. rewrite many_back; [reflexivity|exact IH|lia].
Qed.
Lemma flat_blobs p : Forall (fun b => (List.length b <= List.length (flat p))%nat) (expr_blobs N p).
Proof.
  assert (G : forall l, Forall (fun p => Forall (fun b => (List.length b <= List.length (flat p))%nat) (expr_blobs N p)) l ->
            Forall (fun b => (List.length b <= List.length (flat_map flat l))%nat) (flat_map (expr_blobs N) l)).
  { induction 1 as [|q l Hp H IH]; cbn [flat_map]; [constructor|]. rewrite app_length. apply Forall_app. split; (eapply Forall_impl; [|eassumption]); cbv beta; intros; lia. }
  induction p as [x l IH|n d l IH|b l IH] using proto_ind'; apply G in IH; cbn [flat expr_blobs].
  - eapply Forall_impl; [|exact IH]. cbv beta. cbn [List.length]. intros; lia.
  - apply Forall_app. split; [destruct d; constructor; [|constructor]|eapply Forall_impl; [|exact IH]]; cbv beta; cbn [List.length]; rewrite ?app_length; cbn [List.length]; intros; rewrite ?app_length; cbn [List.length]; lia.
  - constructor; [|eapply Forall_impl; [|exact IH]]; cbv beta; cbn [List.length]; rewrite ?app_length; cbn [List.length]; intros; lia.
Qed.

Definition pack_keys (m : N * list proto * N) : list N := let '(s, l, n) := m in s :: n :: len l :: flat_map flat l.
Definition unpack_keys (bs : list N) : Res (N * list proto * N) :=
  match bs with
  | s :: n :: bs => match counted (parse (List.length bs)) bs with Some (l, _) => Ok (s, l, n) | None => Err "malformed" end
  | _ => Err "malformed"
  end.
Lemma faithful_keys : faithful_partitionings N pack_keys unpack_keys.
Proof.
  intros s l n. split.
  - unfold pack_keys, unpack_keys. rewrite <- (app_nil_r (flat_map flat l)). rewrite many_back; [reflexivity| |].
    + apply Forall_forall. intros p _. apply parse_back.
    + cbn [List.length]. rewrite app_nil_r. lia.
  - cbn [pack_keys List.length]. induction l as [|p l IH]; cbn [flat_map]; [constructor|]. rewrite app_length. apply Forall_app. split.
    + eapply Forall_impl; [|apply flat_blobs]. cbv beta. intros; lia.
    + eapply Forall_impl; [|exact IH]. cbv beta. intros; lia.
Qed.
(** Plans stand for themselves. *)
Notation packet := (plan_proto N N).
Definition packet_size (p : packet) : N := fold_right (fun b n => N.of_nat (List.length b) + n) 0 (plan_blobs N N p).
Lemma faithful_packets : faithful_plans N N (fun p : packet => p) Ok packet_size.
Proof.
  intros p. split; [reflexivity|]. unfold packet_size. induction (plan_blobs N N p) as [|b l IH]; constructor; cbn [fold_right]; [lia|].
  eapply Forall_impl; [|exact IH]. cbv beta. intros; lia.
Qed.
