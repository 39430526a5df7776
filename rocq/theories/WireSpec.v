(** What it means for a message to be a value of its Rust type, and for the fields of a message to be told apart. *)
From Verif Require Import Base WireModel.
From Coq Require Import NArith.
Local Open Scope N_scope.

Section Spec.
Variable name : Type.
Variable fields_of : name -> list (field name).
Variable utf8 : list N -> bool.

Inductive typed : ty name -> value name -> Prop :=
| typed_varint n : n < 2 ^ 64 -> typed TVarint (Varint n)
| typed_bool b : b = 0 \/ b = 1 -> typed TBool (Varint b)
| typed_f64 n : n < 2 ^ 64 -> typed TF64 (Fixed64 n)
| typed_f32 n : n < 2 ^ 32 -> typed TF32 (Fixed32 n)
| typed_string l : utf8 l = true -> typed TString (Blob l)
| typed_bytes l : typed TBytes (Blob l)
| typed_lib l : typed TLib (Blob l)
| typed_msg n cs : Forall2 field_typed (fields_of n) cs -> typed (TMsg n) (Message n cs)
with field_typed : field name -> content name -> Prop :=
(** Plain scalars; -0 is not a value of such a field on the wire. *)
| typed_implicit tag t v : (match t with TMsg _ | TLib => False | _ => True end) -> v <> Fixed64 (2 ^ 63) -> v <> Fixed32 (2 ^ 31) -> typed t v -> field_typed (Implicit tag t) [(tag, v)]
| typed_none tag t : field_typed (Optional tag t) []
| typed_some tag t v : typed t v -> field_typed (Optional tag t) [(tag, v)]
| typed_repeated tag t c : Forall (fun x => fst x = tag /\ typed t (snd x)) c -> field_typed (Repeated tag t) c
| typed_no_variant tags variants : field_typed (Oneof tags variants) []
(** The tag is one of the enum and is listed at the field. *)
| typed_variant tags variants tag t v :
    find (fun x => fst x =? tag) variants = Some (tag, t) -> In tag tags -> typed t v -> field_typed (Oneof tags variants) [(tag, v)].

(** Levels of messages inside a value. *)
Fixpoint levels (v : value name) : nat :=
  match v with
  | Message _ cs => S (fold_right (fun c m => Nat.max (fold_right (fun x m => Nat.max (levels (snd x)) m) 0%nat c) m) 0%nat cs)
  | _ => 0%nat
  end.
Definition inner_levels (cs : list (content name)) : nat :=
  fold_right (fun c m => Nat.max (fold_right (fun x m => Nat.max (levels (snd x)) m) 0%nat c) m) 0%nat cs.

(** Tags of a field. *)
Definition tags_of (f : field name) : list N :=
  match f with Implicit t _ | Optional t _ | Repeated t _ => [t] | Oneof tags _ => tags end.
(** No tag is used twice, and all are protobuf tags. *)
Definition told_apart (fs : list (field name)) : Prop :=
  NoDup (flat_map tags_of fs) /\ Forall (fun t => 0 < t < 2 ^ 29) (flat_map tags_of fs).
End Spec.
