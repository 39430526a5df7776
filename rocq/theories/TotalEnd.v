(** Proofs for C79: the plans of C48 are regular. *)
From Verif Require Import Base NetModel NetSpec CiuModel CiuFloat EventsModel EventsSpec EventsProofs JoinModel JoinSpec JoinProofs PlannerModel
  PlannerSpec PlannerProofs PlannerProps ExecModel ExecSpec ExecProofs ExecPasses ExecEnd ExecOps ExecProps RunSpec RunProofs RunProps
  TotalSpec TotalProofs TotalFloat.
From Coq Require Import ZArith.

Section End.
Context {row : Type}.
Notation tree := (tree row).

Lemma typed_regular pr (t : tree) E D : typed pr t E D -> ordinary t -> fed t -> every_scan readable t ->
  regular t /\ by_ranges t = false.
Proof.
  induction 1 as [l|h n c E D Hn Hc IH|n c E D Hn Hc IH|spm c E D Hc IH Hrr|cs E Hne Ha Hcs IH|w m cs E Hne Ha Hcs IH
    |o c E E' D D' Hc IH _ _ _ _ _|o c h n E E' D' Hc IH _ _ _ _ _|o c E E' D Hc IH _ _ _ _ _
    |a ty c hl hr na n l r D' Hl IHl Hr IHr _ _|j c hl hr na l x r Dl Dr D' Hx IHx Hr IHr Hb Hj _ _ _
    |p E E' D D' Hp IH _ _ _]; intros Ho Hf Hs.
  12: auto.
  6: destruct Ho.
  all: split; [|reflexivity].
  all: cbn [regular ordinary fed every_scan map] in *.
  all: repeat match goal with
       | H : Forall _ [] |- _ => clear H
       | H : Forall (fun P => P) (_ :: _) |- _ => apply Forall_cons_iff in H; destruct H
       | H : _ /\ Forall _ _ |- _ => destruct H
       end.
  - split; [|constructor]. cbn in *. tauto.
  - destruct IH as [A B]; try assumption. split; [|repeat constructor; auto]. cbn. lia.
  - destruct IH as [A B]; try assumption. split; [|repeat constructor; auto]. cbn. lia.
  - destruct IH as [A B]; try assumption. split; [|repeat constructor; auto]. exact B.
  - split; [destruct cs; [congruence|exact Logic.I]|]. rewrite Forall_map, Forall_forall in *.
    intros c Hc. apply IH; auto.
  - destruct IH as [A B]; try assumption. split; [|repeat constructor; auto]. exact Logic.I.
  - destruct IH as [A B]; try assumption. split; [|repeat constructor; auto]. exact Logic.I.
  - destruct IH as [A B]; try assumption. split; [|repeat constructor; auto]. exact Logic.I.
  - split; [exact Logic.I|]. repeat constructor; [apply IHl|apply IHr]; auto.
  - destruct Hb as [<-| ->].
    2: { cbn in *. repeat match goal with H : Forall (fun P => P) (_ :: _) |- _ => apply Forall_cons_iff in H; destruct H end. contradiction. }
    split; [|repeat constructor; [apply IHx|apply IHr]; auto].
    assert (T : tparts l = 1) by (eapply one_part_tparts; eauto).
    destruct j as [[] a ty|ty|]; cbn; auto. 
Qed.
End End.
