(** C44: errors keep their kind and text across the network. C72 for reports of errors. *)
From Verif Require Import Base WireModel WireSpec WireProofs WirePanic ErrorModel ErrorSpec ErrorProofs.
From Coq Require Import NArith Lia.
Local Open Scope N_scope.

(** UTF-8 contains ASCII. *)
Definition has_ascii (utf8 : list N -> bool) : Prop := forall s, Forall (fun b => b < 128) s -> utf8 s = true.
(** The report is smaller than 2^64 bytes. *)
Notation small_report e := (N.of_nat (List.length (details (error_to_status e))) < 2 ^ 64).

(** C44, for the errors [kept] describes, through at most 95 nested messages: a worker's error, in answer to a call or met in a stream, is
    raised at the other side as the same error; of its diagnostics only their being there is kept. *)
Theorem C44_kept_partial utf8 status_text decode_error_text e :
  has_ascii utf8 -> fits utf8 e -> kept e -> (nesting e <= 95)%nat -> small_report e ->
  answered utf8 status_text decode_error_text e = Ok (without_diagnostics e) /\
  streamed utf8 status_text decode_error_text e = Ok (without_diagnostics e).
Proof.
  intros HA HF HK HN HS. change (streamed utf8 status_text decode_error_text e) with (answered utf8 status_text decode_error_text e).
  rewrite (answered_arrives utf8 status_text decode_error_text HA e HF (kept_no_avro e HK) HN HS), (kept_arrives e HK). now split.
Qed.
Print Assumptions C44_kept_partial.

(** So it does through any number of stages. *)
Fixpoint through_stages utf8 status_text decode_error_text (k : nat) (e : error) : Res error :=
  match k with O => Ok e | S k => let* e := streamed utf8 status_text decode_error_text e in through_stages utf8 status_text decode_error_text k e end.
Theorem C44_stages_partial utf8 status_text decode_error_text k e :
  has_ascii utf8 -> fits utf8 e -> kept e -> (nesting e <= 95)%nat -> small_report e ->
  through_stages utf8 status_text decode_error_text (S k) e = Ok (without_diagnostics e).
Proof.
  intros HA. revert e. induction k as [|k IH]; intros e HF HK HN HS.
  - cbn [through_stages]. rewrite (proj2 (C44_kept_partial _ status_text decode_error_text e HA HF HK HN HS)). reflexivity.
  - change (through_stages utf8 status_text decode_error_text (S (S k)) e) with
      (let* e := streamed utf8 status_text decode_error_text e in through_stages utf8 status_text decode_error_text (S k) e).
    rewrite (proj2 (C44_kept_partial _ status_text decode_error_text e HA HF HK HN HS)). cbn [bind]. rewrite IH.
    + now rewrite undiagnosed_twice.
    + apply undiagnosed_fits; [apply HA; constructor|exact HF].
    + now apply undiagnosed_kept.
    + now rewrite undiagnosed_nesting.
    + cbn [error_to_status details] in *. now rewrite undiagnosed_encoding.
Qed.
Print Assumptions C44_stages_partial.

(** What arrives of an error in general, except one of Avro files. *)
Theorem C44_arrival_partial utf8 status_text decode_error_text e :
  has_ascii utf8 -> fits utf8 e -> no_avro e -> (nesting e <= 95)%nat -> small_report e ->
  answered utf8 status_text decode_error_text e = Ok (arrives_as e).
Proof. intros HA. now apply answered_arrives. Qed.
Print Assumptions C44_arrival_partial.

(** Other failures of a call, as of the network, are raised as external errors with the failure's text. *)
Theorem C44_other_failures utf8 status_text decode_error_text s :
  internal s = false \/ message s <> str "DataFusionError" -> map_status_to_error utf8 status_text decode_error_text s = Ok (External (status_text s)).
Proof.
  intros H. unfold map_status_to_error, status_to_error. destruct (internal s) eqn:EI; cbn [negb]; [|reflexivity].
  destruct (list_eq_dec N.eq_dec (message s) (str status_message)) as [E|_]; [|reflexivity]. destruct H; [discriminate|contradiction].
Qed.
Print Assumptions C44_other_failures.

(** *** Instances *)
Definition all_texts (_ : list N) : bool := true.
Definition no_text (_ : status) : text := [].
Definition an_error : error :=
  Context (str "while reading") (Collection [Shared (ArrowError (ArrowIoError (str "read") {| kind := UnexpectedEof; io_text := str "end" |}) (Some (str "scan")));
    Diagnostic (str "here") (SchemaError (FieldNotFound {| relation := Some (Full (str "c") (str "s") (str "t")); column_name := str "x" |} [{| relation := None; column_name := str "y" |}]) None);
    ObjectStore (Generic (str "S3") (str "no route")); ParquetError (IndexOutOfBound 7 3); SQL RecursionLimitExceeded (Some [])]).
Lemma all_texts_ascii : has_ascii all_texts.
Proof. intros s _. reflexivity. Qed.
Example C44_kept_instance :
  fits all_texts an_error /\ kept an_error /\ (nesting an_error <= 95)%nat /\ small_report an_error /\
  answered all_texts no_text str an_error =
  Ok (Context (str "while reading") (Collection [Shared (ArrowError (ArrowIoError (str "read") {| kind := UnexpectedEof; io_text := str "end" |}) (Some (str "scan")));
    Diagnostic [] (SchemaError (FieldNotFound {| relation := Some (Full (str "c") (str "s") (str "t")); column_name := str "x" |} [{| relation := None; column_name := str "y" |}]) None);
    ObjectStore (Generic (str "S3") (str "no route")); ParquetError (IndexOutOfBound 7 3); SQL RecursionLimitExceeded (Some [])])).
Proof.
  split; [|split; [|split; [|split]]].
  - cbn. repeat (split; [first [reflexivity|exact I|(repeat split)]|]); try exact I; repeat (split || constructor).
  - cbn. repeat split. right. right. now left.
  - cbn. lia.
  - reflexivity.
  - vm_compute. reflexivity.
Qed.
Example C44_stages_instance : through_stages all_texts no_text str 3 an_error = Ok (without_diagnostics an_error).
Proof. vm_compute. reflexivity. Qed.
Example C44_other_failures_instance : map_status_to_error all_texts (fun s => message s) str {| internal := false; message := str "gone"; details := [] |} = Ok (External (str "gone")).
Proof. reflexivity. Qed.
Example C44_arrival_instance :
  no_avro (Collection [ExecutionJoin (str "task 7 panicked"); ObjectStore (Generic (str "My store") [])]) /\
  answered all_texts no_text str (Collection [ExecutionJoin (str "task 7 panicked"); ObjectStore (Generic (str "My store") [])]) =
  Ok (Collection [Internal (str "task 7 panicked"); ObjectStore (Generic (str "Unknown") [])]).
Proof. split; [cbn; tauto|vm_compute; reflexivity]. Qed.

(** The full claim is false: the tag of an error of Avro files is missing from the tags read, so kind, text and context are lost; *)
Theorem C44_avro_refuted :
  exists e, e = ArrowError (AvroError (str "bad block")) (Some (str "scan")) /\ fits all_texts e /\
  answered all_texts no_text str e = Ok (ArrowError (ExternalError (str "Malformed protobuf message")) None).
Proof. eexists. split; [reflexivity|]. split; [split; reflexivity|]. vm_compute. reflexivity. Qed.
Print Assumptions C44_avro_refuted.
(** 51 contexts around an error are more messages than are read, and nothing of it is left, whereas 50 arrive; *)
Definition contexts (k : nat) : error := Nat.iter k (Context (str "c")) (Plan (str "m")).
Theorem C44_deep_refuted :
  fits all_texts (contexts 51) /\ kept (contexts 51) /\
  answered all_texts no_text str (contexts 51) = Ok (Internal (str "Cannot decode DataFusionError: recursion limit reached")) /\
  answered all_texts no_text str (contexts 50) = Ok (contexts 50).
Proof. split; [cbn; repeat split|]. split; [exact I|]. split; vm_compute; reflexivity. Qed.
Print Assumptions C44_deep_refuted.
(** and these change their kind or text. *)
Theorem C44_changed_refuted :
  let sees e e' := answered all_texts no_text str e = Ok e' in
  sees (ExecutionJoin (str "m")) (Internal (str "m")) /\
  sees (Ffi (str "m")) (External (str "m")) /\
  sees (IoError {| kind := UnlistedKind 0; io_text := str "m" |}) (IoError {| kind := OtherKind; io_text := str "m" |}) /\
  sees (ParquetError (ParquetUnlisted (str "m"))) (ParquetError (General (str "ParquetError could not be serialized into protobuf"))) /\
  sees (ObjectStore (Generic (str "Hdfs") (str "m"))) (ObjectStore (Generic (str "Unknown") (str "m"))) /\
  sees (ObjectStore (InvalidPath (str "m"))) (ObjectStore (Generic (str "unknown") (str "InvalidPath: m"))) /\
  sees (ObjectStore (ObjectNotImplemented (str "put") (str "S3"))) (ObjectStore (ObjectNotImplemented (str "unknown_operation") (str "unknown_implementer"))).
Proof. cbv zeta. repeat split; vm_compute; reflexivity. Qed.
Print Assumptions C44_changed_refuted.

(** C72 for reports of errors: whatever the status holds, reading it gives an error to raise. *)
Theorem C72_error_reports utf8 status_text decode_error_text f : exists e, map_flight_to_error utf8 status_text decode_error_text f = Ok e.
Proof.
  destruct f as [s|m]; [|eexists; reflexivity]. cbn [map_flight_to_error]. unfold map_status_to_error, status_to_error.
  destruct (internal s); cbn [negb]; [|eexists; reflexivity]. destruct (list_eq_dec _ _ _); cbn [negb]; [|eexists; reflexivity].
  pose proof (decode_no_panic emsg efields utf8 (fun _ => True) errors_good ErrorMsg (details s) I) as H.
  destruct (decode emsg efields utf8 ErrorMsg (details s)) as [m|er|p]; try (eexists; reflexivity). now elim (H p).
Qed.
Print Assumptions C72_error_reports.
Example C72_error_reports_instance :
  map_flight_to_error all_texts no_text str (Tonic {| internal := true; message := str "DataFusionError"; details := [58; 5; 1] |}) =
  Ok (Internal (str "Cannot decode DataFusionError: buffer underflow")).
Proof. vm_compute. reflexivity. Qed.
