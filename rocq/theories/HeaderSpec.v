(** Vocabulary of the theorems about headers. *)
From Verif Require Import Base HeaderModel.
From Coq Require Import Ascii String NArith.
Local Open Scope string_scope.

(** How an implementation of [ConfigExtension] made by [extensions_options!] behaves on its sensible states
    [ok]: the keys are fixed and distinct, and setting a key to a text that some state shows for it makes the
    extension show that text and changes nothing else. *)
Definition lawful (T : extension) (ok : state T -> Prop) : Prop :=
  ok (default T) /\ NoDup (map fst (entries T (default T))) /\
  (forall s, ok s -> map fst (entries T s) = map fst (entries T (default T))) /\
  (forall s0 s k v, ok s0 -> ok s -> In (k, Some v) (entries T s0) ->
     exists s', set T s k v = Ok s' /\ ok s' /\ In (k, Some v) (entries T s') /\
       forall k' v', k' <> k -> (In (k', v') (entries T s') <-> In (k', v') (entries T s))).

(** A key that survives as part of a header name: small letters, digits and the like, and not starting with
    the extension's own prefix. *)
Definition plain_key (T : extension) (k : string) : Prop :=
  header_name (FLIGHT_METADATA_CONFIG_PREFIX ++ PREFIX T ++ "." ++ k) = Ok (FLIGHT_METADATA_CONFIG_PREFIX ++ PREFIX T ++ "." ++ k) /\
  starts_with (PREFIX T ++ ".") k = false /\
  starts_with FLIGHT_METADATA_CONFIG_PREFIX (PREFIX T ++ "." ++ k) = false.

(** A header name that the worker would read as an option of [T]. *)
Definition looks_like_option (T : extension) (name : string) : bool :=
  starts_with (PREFIX T ++ ".") (trim_start_matches FLIGHT_METADATA_CONFIG_PREFIX name).
