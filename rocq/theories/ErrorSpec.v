(** What of an error must arrive at the other side. *)
From Verif Require Import Base ErrorModel.
From Coq Require Import NArith.
Local Open Scope N_scope.

(** An induction principle reaching the errors of a collection. *)
Section Induction.
Variable P : error -> Prop.
Hypothesis leaf : forall e, (match e with Context _ _ | Diagnostic _ _ | Collection _ | Shared _ => False | _ => True end) -> P e.
Hypothesis context : forall c e, P e -> P (Context c e).
Hypothesis diagnostic : forall d e, P e -> P (Diagnostic d e).
Hypothesis collection : forall es, Forall P es -> P (Collection es).
Hypothesis shared : forall e, P e -> P (Shared e).
Fixpoint error_nested (e : error) : P e :=
  match e with
  | Context c e => context c e (error_nested e)
  | Diagnostic d e => diagnostic d e (error_nested e)
  | Collection es => collection es ((fix all es : Forall P es := match es with [] => Forall_nil P | e :: es => Forall_cons e (error_nested e) (all es) end) es)
  | Shared e => shared e (error_nested e)
  | e => leaf e I
  end.
End Induction.

(** Messages an error is nested in: two for a context or a collection, one for a diagnostic or a shared error. *)
Fixpoint nesting (e : error) : nat :=
  match e with
  | Context _ e => 2 + nesting e
  | Diagnostic _ e | Shared e => 1 + nesting e
  | Collection es => 2 + fold_right (fun e m => Nat.max (nesting e) m) 0%nat es
  | _ => 0
  end.

(** ** Errors that exist: strings are UTF-8 and numbers below 2^64 *)
Section Fits.
Variable utf8 : list N -> bool.
Notation ok t := (utf8 t = true).
Definition fits_opt (t : option text) : Prop := match t with Some t => ok t | None => True end.
Definition fits_arrow (e : arrow_error) : Prop :=
  match e with
  | DivideByZero | DictionaryKeyOverflowError | RunEndIndexOverflowError => True
  | OffsetOverflowError n => n < 2 ^ 64
  | ArrowIoError m e => ok m /\ ok (io_text e)
  | NotYetImplemented m | ExternalError m | CastError m | MemoryError m | ParseError m | ArrowSchemaError m | ComputeError m | ArithmeticOverflow m
  | CsvError m | JsonError m | IpcError m | InvalidArgumentError m | ArrowParquetError m | CDataInterface m | AvroError m => ok m
  end.
Definition fits_parquet (e : parquet_error) : Prop :=
  match e with
  | IndexOutOfBound a b => a < 2 ^ 64 /\ b < 2 ^ 64
  | NeedMoreData n => n < 2 ^ 64
  | General m | NYI m | EOF m | ParquetArrowError m | ParquetExternal m | ParquetUnlisted m => ok m
  end.
Definition fits_object_store (e : object_store_error) : Prop :=
  match e with
  | InvalidPath s | JoinError s | NotSupported s | ObjectUnlisted s => ok s
  | Generic a b | ObjectNotFound a b | ObjectAlreadyExists a b | Precondition a b | NotModified a b | ObjectNotImplemented a b
  | ObjectPermissionDenied a b | Unauthenticated a b | UnknownConfigurationKey a b => ok a /\ ok b
  end.
Definition fits_table (t : table_reference) : Prop :=
  match t with Bare t => ok t | Partial s t => ok s /\ ok t | Full c s t => ok c /\ ok s /\ ok t end.
Definition fits_column (c : column) : Prop := match relation c with Some t => fits_table t | None => True end /\ ok (column_name c).
Definition fits_schema (e : schema_error) : Prop :=
  match e with
  | AmbiguousReference c => fits_column c
  | DuplicateQualifiedField q n => fits_table q /\ ok n
  | DuplicateUnqualifiedField n => ok n
  | FieldNotFound c cs => fits_column c /\ Forall fits_column cs
  end.
Fixpoint fits (e : error) : Prop :=
  match e with
  | ArrowError e ctx => fits_arrow e /\ fits_opt ctx
  | ParquetError e => fits_parquet e
  | ObjectStore e => fits_object_store e
  | IoError e => ok (io_text e)
  | SQL e bt => match e with TokenizerError m | ParserError m => ok m | RecursionLimitExceeded => True end /\ fits_opt bt
  | SchemaError e bt => fits_schema e /\ fits_opt bt
  | Context ctx e => ok ctx /\ fits e
  | Diagnostic d e => ok d /\ fits e
  | Collection es => fold_right (fun e p => fits e /\ p) True es
  | Shared e => fits e
  | NotImplemented m | Internal m | Plan m | Configuration m | Execution m | ExecutionJoin m | ResourcesExhausted m | External m | Substrait m
  | Ffi m => ok m
  end.
End Fits.

(** ** Errors that keep their kind and text *)

(** Kinds of io errors with a number of their own. *)
Definition kept_kind (k : io_kind) : Prop := match k with UnlistedKind _ => False | _ => True end.
(** Names of object stores that are recognized. *)
Definition store_names : list text :=
  map str ["GCS"; "MicrosoftAzure"; "S3"; "Config"; "ChunkedStore"; "LineDelimiter"; "HTTP client"; "HTTP"; "URL"; "InMemory";
           "ObjectStoreRegistry"; "Parts"; "LocalFileSystem"]%string.
Fixpoint kept (e : error) : Prop :=
  match e with
  | ArrowError (AvroError _) _ => False
  | ArrowError (ArrowIoError _ e) _ => kept_kind (kind e)
  | IoError e => kept_kind (kind e)
  | ParquetError (ParquetUnlisted _) => False
  | ObjectStore (Generic store _) | ObjectStore (UnknownConfigurationKey _ store) => In store store_names
  | ObjectStore (InvalidPath _) | ObjectStore (JoinError _) | ObjectStore (ObjectUnlisted _) | ObjectStore (ObjectNotImplemented _ _) => False
  | ExecutionJoin _ | Ffi _ => False
  | Context _ e | Diagnostic _ e | Shared e => kept e
  | Collection es => fold_right (fun e p => kept e /\ p) True es
  | _ => True
  end.
(** The error without the contents of its diagnostics, which are no part of its text. *)
Fixpoint without_diagnostics (e : error) : error :=
  match e with
  | Context c e => Context c (without_diagnostics e)
  | Diagnostic _ e => Diagnostic [] (without_diagnostics e)
  | Collection es => Collection (map without_diagnostics es)
  | Shared e => Shared (without_diagnostics e)
  | e => e
  end.

(** ** What arrives of the others *)
Definition arrives_io (e : io_error) : io_error := {| kind := match kind e with UnlistedKind _ => OtherKind | k => k end; io_text := io_text e |}.
Definition arrives_arrow (e : arrow_error) : arrow_error := match e with ArrowIoError m e => ArrowIoError m (arrives_io e) | e => e end.
Definition arrives_parquet (e : parquet_error) : parquet_error :=
  match e with ParquetUnlisted _ => General (str "ParquetError could not be serialized into protobuf") | e => e end.
Definition arrives_store (s : text) : text := if in_dec (list_eq_dec N.eq_dec) s store_names then s else str "Unknown".
Definition arrives_object_store (e : object_store_error) : object_store_error :=
  match e with
  | Generic store source => Generic (arrives_store store) source
  | UnknownConfigurationKey key store => UnknownConfigurationKey key (arrives_store store)
  | InvalidPath s => Generic (str "unknown") (str "InvalidPath: " ++ s)
  | JoinError s => Generic (str "unknown") (str "JoinError: " ++ s)
  | ObjectNotImplemented _ _ => ObjectNotImplemented (str "unknown_operation") (str "unknown_implementer")
  | ObjectUnlisted _ => Generic (str "Unknown") (str "Could not serialize ObjectStore error to proto")
  | e => e
  end.
Fixpoint arrives_as (e : error) : error :=
  match e with
  | ArrowError e ctx => ArrowError (arrives_arrow e) ctx
  | ParquetError e => ParquetError (arrives_parquet e)
  | ObjectStore e => ObjectStore (arrives_object_store e)
  | IoError e => IoError (arrives_io e)
  | ExecutionJoin m => Internal m
  | Ffi m => External m
  | Context c e => Context c (arrives_as e)
  | Diagnostic _ e => Diagnostic [] (arrives_as e)
  | Collection es => Collection (map arrives_as es)
  | Shared e => Shared (arrives_as e)
  | e => e
  end.
(** No error of Avro files inside. *)
Fixpoint no_avro (e : error) : Prop :=
  match e with
  | ArrowError (AvroError _) _ => False
  | Context _ e | Diagnostic _ e | Shared e => no_avro e
  | Collection es => fold_right (fun e p => no_avro e /\ p) True es
  | _ => True
  end.
