(** Errors sent over the network: src/protocol/grpc/errors/.

    Strings are the bytes of their UTF-8 encoding. An error held only as [dyn Error], or of a type of another crate that is sent by its text
    (tokio's JoinError, object_store's path error), is its text. Errors of enums that may get further variants ([#[non_exhaustive]], matched by
    [_] in the code) have a constructor with the text for those. Built with the features [parquet] and [sql]. *)
From Verif Require Import Base CiuModel WireModel.
From Coq Require Import NArith ZArith.
Local Open Scope N_scope.

Notation text := (list N).
Notation status_message := "DataFusionError"%string.
(** A string of the code as bytes. *)
Definition str (s : string) : text := map Ascii.N_of_ascii (list_ascii_of_string s).

(** ** Errors *)

(** std::io::ErrorKind, and the kinds the code does not list. *)
Inductive io_kind :=
| NotFound | PermissionDenied | ConnectionRefused | ConnectionReset | HostUnreachable | NetworkUnreachable | ConnectionAborted | NotConnected
| AddrInUse | AddrNotAvailable | NetworkDown | BrokenPipe | AlreadyExists | WouldBlock | NotADirectory | IsADirectory | DirectoryNotEmpty
| ReadOnlyFilesystem | StaleNetworkFileHandle | InvalidInput | InvalidData | TimedOut | WriteZero | StorageFull | NotSeekable | FileTooLarge
| ResourceBusy | ExecutableFileBusy | Deadlock | TooManyLinks | ArgumentListTooLong | Interrupted | Unsupported | UnexpectedEof | OutOfMemory
| OtherKind | UnlistedKind (n : N).
(** std::io::Error: its kind and text. Not modelled: the number of an error of the operating system. *)
Record io_error := { kind : io_kind; io_text : text }.

Inductive arrow_error :=
| NotYetImplemented (m : text) | ExternalError (m : text) | CastError (m : text) | MemoryError (m : text) | ParseError (m : text)
| ArrowSchemaError (m : text) | ComputeError (m : text) | DivideByZero | ArithmeticOverflow (m : text) | CsvError (m : text) | JsonError (m : text)
| ArrowIoError (m : text) (e : io_error) | IpcError (m : text) | InvalidArgumentError (m : text) | ArrowParquetError (m : text)
| CDataInterface (m : text) | DictionaryKeyOverflowError | RunEndIndexOverflowError | OffsetOverflowError (n : N) | AvroError (m : text).

Inductive parquet_error :=
| General (m : text) | NYI (m : text) | EOF (m : text) | ParquetArrowError (m : text) | IndexOutOfBound (a b : N) | ParquetExternal (m : text)
| NeedMoreData (n : N) | ParquetUnlisted (m : text).

Inductive object_store_error :=
| Generic (store source : text) | ObjectNotFound (path source : text) | InvalidPath (source : text) | JoinError (source : text) | NotSupported (source : text)
| ObjectAlreadyExists (path source : text) | Precondition (path source : text) | NotModified (path source : text)
| ObjectNotImplemented (operation implementer : text) | ObjectPermissionDenied (path source : text) | Unauthenticated (path source : text)
| UnknownConfigurationKey (key store : text) | ObjectUnlisted (m : text).

Inductive parser_error := TokenizerError (m : text) | ParserError (m : text) | RecursionLimitExceeded.

Inductive table_reference := Bare (table : text) | Partial (schema table : text) | Full (catalog schema table : text).
(** Without the spans, which are positions in the query's text. *)
Record column := { relation : option table_reference; column_name : text }.
Inductive schema_error :=
| AmbiguousReference (field : column) | DuplicateQualifiedField (qualifier : table_reference) (name : text) | DuplicateUnqualifiedField (name : text)
| FieldNotFound (field : column) (valid_fields : list column).

(** DataFusionError. A diagnostic is its message. *)
Inductive error :=
| ArrowError (e : arrow_error) (ctx : option text) | ParquetError (e : parquet_error) | ObjectStore (e : object_store_error) | IoError (e : io_error)
| SQL (e : parser_error) (backtrace : option text) | NotImplemented (m : text) | Internal (m : text) | Plan (m : text) | Configuration (m : text)
| SchemaError (e : schema_error) (backtrace : option text) | Execution (m : text) | ExecutionJoin (m : text) | ResourcesExhausted (m : text)
| External (m : text) | Context (ctx : text) (e : error) | Substrait (m : text) | Diagnostic (d : text) (e : error) | Collection (es : list error)
| Shared (e : error) | Ffi (m : text).

(** ** Message types *)

(** [TextMsg] and [FlagMsg] are String and bool sent as messages (prost's wrappers); [PathMsg] is ObjectStoreSourcePathErrorProto, [SourceMsg]
    ObjectStoreSourceErrorProto. *)
Inductive emsg :=
| ErrorMsg | SqlMsg | ContextMsg | CollectionMsg | ArrowMsg | IoMsg | TextMsg | FlagMsg | ParquetMsg | IndexMsg | ObjectStoreMsg | GenericMsg
| SourceMsg | PathMsg | KeyMsg | ParserMsg | SchemaMsg | AmbiguousMsg | QualifiedMsg | UnqualifiedMsg | NotFoundMsg | ColumnMsg | TableMsg
| BareMsg | PartialMsg | FullMsg.

Definition efields (m : emsg) : list (field emsg) :=
  match m with
  (* datafusion_error.rs:13-84 *)
  | ErrorMsg =>
      [Oneof [1; 2; 3; 4; 5; 6; 7; 8; 9; 10; 11; 12; 13; 14; 15; 16; 17; 18; 19]
         [(1, TMsg ArrowMsg); (2, TMsg ParquetMsg); (3, TMsg ObjectStoreMsg); (4, TMsg IoMsg); (5, TMsg SqlMsg); (6, TString); (7, TString);
          (8, TString); (9, TString); (10, TMsg SchemaMsg); (11, TString); (12, TString); (13, TString); (14, TString); (15, TMsg ContextMsg);
          (16, TString); (17, TMsg ErrorMsg); (18, TMsg CollectionMsg); (19, TMsg ErrorMsg)]]
  | SqlMsg => [Optional 1 (TMsg ParserMsg); Optional 2 TString]
  | ContextMsg => [Optional 1 (TMsg ErrorMsg); Implicit 2 TString]
  | CollectionMsg => [Repeated 1 (TMsg ErrorMsg)]
  (* arrow_error.rs:5-57: the tags listed end with 20, the enum with 21 *)
  | ArrowMsg =>
      [Optional 1 TString;
       Oneof [2; 3; 4; 5; 6; 7; 8; 9; 10; 11; 12; 13; 14; 15; 16; 17; 18; 19; 20]
         [(2, TString); (3, TString); (4, TString); (5, TString); (6, TString); (7, TString); (8, TString); (9, TBool); (10, TString);
          (11, TString); (12, TString); (13, TMsg IoMsg); (14, TMsg TextMsg); (15, TMsg TextMsg); (16, TMsg TextMsg); (17, TMsg TextMsg);
          (18, TBool); (19, TBool); (20, TVarint); (21, TString)]]
  (* io_error.rs:3-11 *)
  | IoMsg => [Implicit 1 TString; Implicit 2 TVarint; Implicit 3 TString]
  | TextMsg => [Implicit 1 TString]
  | FlagMsg => [Implicit 1 TBool]
  (* parquet_error.rs:6-36 *)
  | ParquetMsg =>
      [Oneof [1; 2; 3; 4; 5; 6; 7]
         [(1, TMsg TextMsg); (2, TMsg TextMsg); (3, TMsg TextMsg); (4, TMsg TextMsg); (5, TMsg IndexMsg); (6, TMsg TextMsg); (7, TVarint)]]
  | IndexMsg => [Implicit 1 TVarint; Implicit 2 TVarint]
  (* objectstore_error.rs:1-68 *)
  | ObjectStoreMsg =>
      [Oneof [1; 2; 3; 4; 5; 6; 7; 8; 9; 10; 11; 12]
         [(1, TMsg GenericMsg); (2, TMsg PathMsg); (3, TMsg SourceMsg); (4, TMsg SourceMsg); (5, TMsg SourceMsg); (6, TMsg PathMsg);
          (7, TMsg PathMsg); (8, TMsg PathMsg); (9, TMsg FlagMsg); (10, TMsg PathMsg); (11, TMsg PathMsg); (12, TMsg KeyMsg)]]
  | GenericMsg => [Implicit 1 TString; Implicit 2 TString]
  | SourceMsg => [Implicit 1 TString]
  | PathMsg => [Implicit 1 TString; Implicit 2 TString]
  | KeyMsg => [Implicit 1 TString; Implicit 2 TString]
  (* parser_error.rs:6-20 *)
  | ParserMsg => [Oneof [1; 2; 3] [(1, TString); (2, TString); (3, TBool)]]
  (* schema_error.rs:3-58, 75-114 *)
  | SchemaMsg =>
      [Optional 1 TString; Oneof [2; 3; 4; 5] [(2, TMsg AmbiguousMsg); (3, TMsg QualifiedMsg); (4, TMsg UnqualifiedMsg); (5, TMsg NotFoundMsg)]]
  | AmbiguousMsg => [Optional 1 (TMsg ColumnMsg)]
  | QualifiedMsg => [Optional 1 (TMsg TableMsg); Implicit 2 TString]
  | UnqualifiedMsg => [Implicit 1 TString]
  | NotFoundMsg => [Optional 1 (TMsg ColumnMsg); Repeated 2 (TMsg ColumnMsg)]
  | ColumnMsg => [Optional 1 (TMsg TableMsg); Implicit 2 TString]
  | TableMsg => [Oneof [1; 2; 3] [(1, TMsg BareMsg); (2, TMsg PartialMsg); (3, TMsg FullMsg)]]
  | BareMsg => [Implicit 1 TString]
  | PartialMsg => [Implicit 1 TString; Implicit 2 TString]
  | FullMsg => [Implicit 1 TString; Implicit 2 TString; Implicit 3 TString]
  end.

(** ** Fields of messages, as in CodecModel *)

Notation emessage := (list (content emsg)).
Definition set (tag : N) (v : value emsg) : content emsg := [(tag, v)].
Definition set_text (tag : N) (t : text) : content emsg := set tag (Blob t).
Definition set_opt (tag : N) (t : option text) : content emsg := match t with Some t => set_text tag t | None => [] end.
Definition v_num (v : value emsg) : N := match v with Varint n | Fixed64 n | Fixed32 n => n | _ => 0 end.
Definition v_text (v : value emsg) : text := match v with Blob l => l | _ => [] end.
Definition v_message (v : value emsg) : emessage := match v with Message _ cs => cs | _ => [] end.
Definition at_ (i : nat) (m : emessage) : content emsg := nth i m [].
Definition get_text (i : nat) (m : emessage) : text := match at_ i m with (_, v) :: _ => v_text v | [] => [] end.
Definition get_num (i : nat) (m : emessage) : N := match at_ i m with (_, v) :: _ => v_num v | [] => 0 end.
Definition get_opt (i : nat) (m : emessage) : option text := match at_ i m with (_, v) :: _ => Some (v_text v) | [] => None end.

(** A String as a message. *)
Definition wrapped (t : text) : value emsg := Message TextMsg [set_text 1 t].
Definition unwrapped (v : value emsg) : text := get_text 0 (v_message v).

(** ** io_error.rs *)

(** io_error.rs:17-55; the codes are [i32], sent as the varint of their 64-bit two's complement. *)
Definition minus_one : N := 18446744073709551615.
Definition code_of (k : io_kind) : N :=
  match k with
  | NotFound => 0 | PermissionDenied => 1 | ConnectionRefused => 2 | ConnectionReset => 3 | HostUnreachable => 4 | NetworkUnreachable => 5
  | ConnectionAborted => 6 | NotConnected => 7 | AddrInUse => 8 | AddrNotAvailable => 9 | NetworkDown => 10 | BrokenPipe => 11 | AlreadyExists => 12
  | WouldBlock => 13 | NotADirectory => 14 | IsADirectory => 15 | DirectoryNotEmpty => 16 | ReadOnlyFilesystem => 17 | StaleNetworkFileHandle => 18
  | InvalidInput => 19 | InvalidData => 20 | TimedOut => 21 | WriteZero => 22 | StorageFull => 23 | NotSeekable => 24 | FileTooLarge => 25
  | ResourceBusy => 26 | ExecutableFileBusy => 27 | Deadlock => 28 | TooManyLinks => 29 | ArgumentListTooLong => 30 | Interrupted => 31
  | Unsupported => 32 | UnexpectedEof => 33 | OutOfMemory => 34 | OtherKind => 35
  | UnlistedKind _ => minus_one
  end.
(** io_error.rs:61-99; a decoded varint is cut to 32 bits. *)
Definition kind_of (code : N) : io_kind :=
  match code mod 2 ^ 32 with
  | 0 => NotFound | 1 => PermissionDenied | 2 => ConnectionRefused | 3 => ConnectionReset | 4 => HostUnreachable | 5 => NetworkUnreachable
  | 6 => ConnectionAborted | 7 => NotConnected | 8 => AddrInUse | 9 => AddrNotAvailable | 10 => NetworkDown | 11 => BrokenPipe | 12 => AlreadyExists
  | 13 => WouldBlock | 14 => NotADirectory | 15 => IsADirectory | 16 => DirectoryNotEmpty | 17 => ReadOnlyFilesystem | 18 => StaleNetworkFileHandle
  | 19 => InvalidInput | 20 => InvalidData | 21 => TimedOut | 22 => WriteZero | 23 => StorageFull | 24 => NotSeekable | 25 => FileTooLarge
  | 26 => ResourceBusy | 27 => ExecutableFileBusy | 28 => Deadlock | 29 => TooManyLinks | 30 => ArgumentListTooLong | 31 => Interrupted
  | 32 => Unsupported | 33 => UnexpectedEof | 34 => OutOfMemory | 35 => OtherKind
  | _ => OtherKind
  end.
(** io_error.rs:14-58 *)
Definition from_io_error (m : text) (e : io_error) : emessage := [set_text 1 m; set 2 (Varint (code_of (kind e))); set_text 3 (io_text e)].
(** io_error.rs:60-104 *)
Definition to_io_error (m : emessage) : io_error * text := ({| kind := kind_of (get_num 1 m); io_text := get_text 2 m |}, get_text 0 m).

(** ** arrow_error.rs *)

(** arrow_error.rs:60-146 *)
Definition from_arrow_error (e : arrow_error) (ctx : option text) : emessage :=
  [set_opt 1 ctx;
   match e with
   | NotYetImplemented m => set_text 2 m | ExternalError m => set_text 3 m | CastError m => set_text 4 m | MemoryError m => set_text 5 m
   | ParseError m => set_text 6 m | ArrowSchemaError m => set_text 7 m | ComputeError m => set_text 8 m | DivideByZero => set 9 (Varint 1)
   | ArithmeticOverflow m => set_text 10 m | CsvError m => set_text 11 m | JsonError m => set_text 12 m
   | ArrowIoError m e => set 13 (Message IoMsg (from_io_error m e))
   | IpcError m => set 14 (wrapped m) | InvalidArgumentError m => set 15 (wrapped m) | ArrowParquetError m => set 16 (wrapped m)
   | CDataInterface m => set 17 (wrapped m) | DictionaryKeyOverflowError => set 18 (Varint 1) | RunEndIndexOverflowError => set 19 (Varint 1)
   | OffsetOverflowError n => set 20 (Varint n) | AvroError m => set_text 21 m
   end].
(** arrow_error.rs:148-201 *)
Definition to_arrow_error (m : emessage) : arrow_error * option text :=
  match at_ 1 m with
  | [] => (ExternalError (str "Malformed protobuf message"), None)
  | (tag, v) :: _ =>
      (match tag with
       | 2 => NotYetImplemented (v_text v) | 3 => ExternalError (v_text v) | 4 => CastError (v_text v) | 5 => MemoryError (v_text v)
       | 6 => ParseError (v_text v) | 7 => ArrowSchemaError (v_text v) | 8 => ComputeError (v_text v) | 9 => DivideByZero
       | 10 => ArithmeticOverflow (v_text v) | 11 => CsvError (v_text v) | 12 => JsonError (v_text v)
       | 13 => let '(e, m) := to_io_error (v_message v) in ArrowIoError m e
       | 14 => IpcError (unwrapped v) | 15 => InvalidArgumentError (unwrapped v) | 16 => ArrowParquetError (unwrapped v)
       | 17 => CDataInterface (unwrapped v) | 18 => DictionaryKeyOverflowError | 19 => RunEndIndexOverflowError
       | 20 => OffsetOverflowError (v_num v) | _ => AvroError (v_text v)
       end, get_opt 0 m)
  end.

(** ** parquet_error.rs *)

(** parquet_error.rs:62-95 *)
Definition from_parquet_error (e : parquet_error) : emessage :=
  [match e with
   | General m => set 1 (wrapped m) | NYI m => set 2 (wrapped m) | EOF m => set 3 (wrapped m) | ParquetArrowError m => set 4 (wrapped m)
   | IndexOutOfBound a b => set 5 (Message IndexMsg [set 1 (Varint a); set 2 (Varint b)])
   | ParquetExternal m => set 6 (wrapped m) | NeedMoreData n => set 7 (Varint n)
   | ParquetUnlisted _ => set 1 (wrapped (str "ParquetError could not be serialized into protobuf"))
   end].
(** parquet_error.rs:97-115 *)
Definition to_parquet_error (m : emessage) : parquet_error :=
  match at_ 0 m with
  | [] => ParquetExternal (str "Malformed protobuf message")
  | (tag, v) :: _ =>
      match tag with
      | 1 => General (unwrapped v) | 2 => NYI (unwrapped v) | 3 => EOF (unwrapped v) | 4 => ParquetArrowError (unwrapped v)
      | 5 => IndexOutOfBound (get_num 0 (v_message v)) (get_num 1 (v_message v))
      | 6 => ParquetExternal (unwrapped v) | _ => NeedMoreData (v_num v)
      end
  end.

(** ** objectstore_error.rs *)

Definition path_msg (path source : text) : value emsg := Message PathMsg [set_text 1 path; set_text 2 source].
Definition source_msg (source : text) : value emsg := Message SourceMsg [set_text 1 source].
(** objectstore_error.rs:71-165 *)
Definition from_object_store_error (e : object_store_error) : emessage :=
  [match e with
   | Generic store source => set 1 (Message GenericMsg [set_text 1 store; set_text 2 source])
   | ObjectNotFound p s => set 2 (path_msg p s)
   | InvalidPath s => set 3 (source_msg s)
   | JoinError s => set 4 (source_msg s)
   | NotSupported s => set 5 (source_msg s)
   | ObjectAlreadyExists p s => set 6 (path_msg p s)
   | Precondition p s => set 7 (path_msg p s)
   | NotModified p s => set 8 (path_msg p s)
   | ObjectNotImplemented _ _ => set 9 (Message FlagMsg [set 1 (Varint 1)])
   | ObjectPermissionDenied p s => set 10 (path_msg p s)
   | Unauthenticated p s => set 11 (path_msg p s)
   | UnknownConfigurationKey key store => set 12 (Message KeyMsg [set_text 1 key; set_text 2 store])
   | ObjectUnlisted _ =>
       let t := str "Could not serialize ObjectStore error to proto" in set 1 (Message GenericMsg [set_text 1 t; set_text 2 t])
   end].
(** objectstore_error.rs:243-263 *)
Definition known_stores : list text :=
  map str ["GCS"; "MicrosoftAzure"; "S3"; "Config"; "ChunkedStore"; "LineDelimiter"; "HTTP client"; "HTTP"; "URL"; "InMemory";
           "ObjectStoreRegistry"; "Parts"; "LocalFileSystem"]%string.
Definition parse_store (s : text) : text := if existsb (fun k => if list_eq_dec N.eq_dec k s then true else false) known_stores then s else str "Unknown".
(** objectstore_error.rs:167-240 *)
Definition to_object_store_error (m : emessage) : object_store_error :=
  match at_ 0 m with
  | [] => Generic (str "unknown") (str "Could not deserialize ObjectStore error from proto")
  | (tag, v) :: _ =>
      let t0 := get_text 0 (v_message v) in let t1 := get_text 1 (v_message v) in
      match tag with
      | 1 => Generic (parse_store t0) t1 | 2 => ObjectNotFound t0 t1
      | 3 => Generic (str "unknown") (str "InvalidPath: " ++ t0) | 4 => Generic (str "unknown") (str "JoinError: " ++ t0)
      | 5 => NotSupported t0 | 6 => ObjectAlreadyExists t0 t1 | 7 => Precondition t0 t1 | 8 => NotModified t0 t1
      | 9 => ObjectNotImplemented (str "unknown_operation") (str "unknown_implementer")
      | 10 => ObjectPermissionDenied t0 t1 | 11 => Unauthenticated t0 t1 | _ => UnknownConfigurationKey t0 (parse_store t1)
      end
  end.

(** ** parser_error.rs *)

(** parser_error.rs:37-50 *)
Definition from_parser_error (e : parser_error) : emessage :=
  [match e with TokenizerError m => set_text 1 m | ParserError m => set_text 2 m | RecursionLimitExceeded => set 3 (Varint 1) end].
(** parser_error.rs:52-64 *)
Definition to_parser_error (m : emessage) : parser_error :=
  match at_ 0 m with
  | [] => ParserError (str "Malformed protobuf message")
  | (tag, v) :: _ => match tag with 1 => TokenizerError (v_text v) | 2 => ParserError (v_text v) | _ => RecursionLimitExceeded end
  end.

(** ** schema_error.rs *)

(** schema_error.rs:117-144 *)
Definition from_table_reference (t : table_reference) : emessage :=
  [match t with
   | Bare t => set 1 (Message BareMsg [set_text 1 t])
   | Partial s t => set 2 (Message PartialMsg [set_text 1 s; set_text 2 t])
   | Full c s t => set 3 (Message FullMsg [set_text 1 c; set_text 2 s; set_text 3 t])
   end].
(** schema_error.rs:146-165 *)
Definition to_table_reference (m : emessage) : table_reference :=
  match at_ 0 m with
  | [] => Bare []
  | (tag, v) :: _ =>
      let m := v_message v in
      match tag with
      | 1 => Bare (get_text 0 m) | 2 => Partial (get_text 0 m) (get_text 1 m) | _ => Full (get_text 0 m) (get_text 1 m) (get_text 2 m)
      end
  end.
(** schema_error.rs:61-69 *)
Definition from_column (c : column) : emessage :=
  [match relation c with Some r => set 1 (Message TableMsg (from_table_reference r)) | None => [] end; set_text 2 (column_name c)].
(** schema_error.rs:71-76 *)
Definition to_column (m : emessage) : column :=
  {| relation := match at_ 0 m with (_, v) :: _ => Some (to_table_reference (v_message v)) | [] => None end; column_name := get_text 1 m |}.
Definition column_or_empty (c : content emsg) : column :=
  match c with (_, v) :: _ => to_column (v_message v) | [] => {| relation := None; column_name := [] |} end.
(** schema_error.rs:169-209 *)
Definition from_schema_error (e : schema_error) (backtrace : option text) : emessage :=
  [set_opt 1 backtrace;
   match e with
   | AmbiguousReference f => set 2 (Message AmbiguousMsg [set 1 (Message ColumnMsg (from_column f))])
   | DuplicateQualifiedField q n => set 3 (Message QualifiedMsg [set 1 (Message TableMsg (from_table_reference q)); set_text 2 n])
   | DuplicateUnqualifiedField n => set 4 (Message UnqualifiedMsg [set_text 1 n])
   | FieldNotFound f valid =>
       set 5 (Message NotFoundMsg [set 1 (Message ColumnMsg (from_column f)); map (fun c => (2, Message ColumnMsg (from_column c))) valid])
   end].
(** schema_error.rs:211-259 *)
Definition to_schema_error (m : emessage) : schema_error * option text :=
  match at_ 1 m with
  | [] => (FieldNotFound {| relation := None; column_name := [] |} [], None)
  | (tag, v) :: _ =>
      let i := v_message v in
      (match tag with
       | 2 => AmbiguousReference (column_or_empty (at_ 0 i))
       | 3 => DuplicateQualifiedField (match at_ 0 i with (_, v) :: _ => to_table_reference (v_message v) | [] => Bare [] end) (get_text 1 i)
       | 4 => DuplicateUnqualifiedField (get_text 0 i)
       | _ => FieldNotFound (column_or_empty (at_ 0 i)) (map (fun x => to_column (v_message (snd x))) (at_ 1 i))
       end, get_opt 0 m)
  end.

(** ** datafusion_error.rs *)

(** datafusion_error.rs:87-183 *)
Fixpoint from_datafusion_error (e : error) : emessage :=
  [match e with
   | ArrowError e ctx => set 1 (Message ArrowMsg (from_arrow_error e ctx))
   | ParquetError e => set 2 (Message ParquetMsg (from_parquet_error e))
   | ObjectStore e => set 3 (Message ObjectStoreMsg (from_object_store_error e))
   | IoError e => set 4 (Message IoMsg (from_io_error [] e))
   | SQL e bt => set 5 (Message SqlMsg [set 1 (Message ParserMsg (from_parser_error e)); set_opt 2 bt])
   | NotImplemented m => set_text 6 m
   | Internal m => set_text 7 m
   | Plan m => set_text 8 m
   | Configuration m => set_text 9 m
   | SchemaError e bt => set 10 (Message SchemaMsg (from_schema_error e bt))
   | Execution m => set_text 11 m
   | ExecutionJoin m => set_text 12 m
   | ResourcesExhausted m => set_text 13 m
   | External m => set_text 14 m
   | Context ctx e => set 15 (Message ContextMsg [set 1 (Message ErrorMsg (from_datafusion_error e)); set_text 2 ctx])
   | Substrait m => set_text 16 m
   | Diagnostic _ e => set 17 (Message ErrorMsg (from_datafusion_error e))
   | Collection es => set 18 (Message CollectionMsg [map (fun e => (1, Message ErrorMsg (from_datafusion_error e))) es])
   | Shared e => set 19 (Message ErrorMsg (from_datafusion_error e))
   | Ffi m => set_text 14 m
   end].

(** datafusion_error.rs:185-286, on the message as a value *)
Fixpoint to_datafusion_err (v : value emsg) : error :=
  match v with
  | Message _ (((tag, v) :: _) :: _) =>
      match tag with
      | 1 => let '(e, ctx) := to_arrow_error (v_message v) in ArrowError e ctx
      | 2 => ParquetError (to_parquet_error (v_message v))
      | 3 => ObjectStore (to_object_store_error (v_message v))
      | 4 => IoError (fst (to_io_error (v_message v)))
      | 5 => SQL (match at_ 0 (v_message v) with (_, v) :: _ => to_parser_error (v_message v) | [] => ParserError [] end) (get_opt 1 (v_message v))
      | 6 => NotImplemented (v_text v)
      | 7 => Internal (v_text v)
      | 8 => Plan (v_text v)
      | 9 => Configuration (v_text v)
      | 10 => let '(e, bt) := to_schema_error (v_message v) in SchemaError e bt
      | 11 => Execution (v_text v)
      | 12 => Internal (v_text v)
      | 13 => ResourcesExhausted (v_text v)
      | 14 => External (v_text v)
      | 15 =>
          Context (get_text 1 (v_message v))
            match v with Message _ (((_, e) :: _) :: _) => to_datafusion_err e | _ => Internal (str "Missing DataFusionError protobuf message") end
      | 16 => Substrait (v_text v)
      | 17 => Diagnostic [] (to_datafusion_err v)
      | 18 => Collection match v with Message _ (es :: _) => map (fun x => to_datafusion_err (snd x)) es | _ => [] end
      | _ => Shared (to_datafusion_err v)
      end
  | _ => Internal (str "DataFusionError proto message is empty")
  end.

(** ** mod.rs *)

(** tonic::Status; a code other than Internal is [false]. *)
Record status := { internal : bool; message : text; details : list N }.

Section Status.
Variable utf8 : list N -> bool.
(** Texts of tonic's statuses and of prost's errors. *)
Variable status_text : status -> text.
Variable decode_error_text : string -> text.

(** mod.rs:22-27 *)
Definition error_to_status (e : error) : status :=
  {| internal := true; message := str status_message; details := encode emsg efields ErrorMsg (from_datafusion_error e) |}.
(** mod.rs:35-54 *)
Definition status_to_error (s : status) : Res (option error) :=
  if negb (internal s) then Ok None
  else if negb (if list_eq_dec N.eq_dec (message s) (str status_message) then true else false) then Ok None
  else match decode emsg efields utf8 ErrorMsg (details s) with
       | Ok m => Ok (Some (to_datafusion_err (Message ErrorMsg m)))
       | Err e => Ok (Some (Internal (str "Cannot decode DataFusionError: " ++ decode_error_text e)))
       | Panic p => Panic p
       end.
(** mod.rs:58-61 *)
Definition map_status_to_error (s : status) : Res error :=
  let* o := status_to_error s in Ok match o with Some e => e | None => External (status_text s) end.

(** arrow_flight::error::FlightError: those of tonic, and others by their texts. *)
Inductive flight_error := Tonic (s : status) | OtherFlight (m : text).
(** mod.rs:65-70 *)
Definition map_flight_to_error (f : flight_error) : Res error :=
  match f with Tonic s => map_status_to_error s | OtherFlight m => Ok (External m) end.

(** An error met while streaming a partition: src/protocol/grpc/worker_service.rs:396, then 180-183 *)
Definition flight_to_status (f : flight_error) : status :=
  match f with Tonic s => s | OtherFlight m => {| internal := true; message := str "Error during flight stream: " ++ m; details := [] |} end.
(** src/protocol/grpc/worker_client.rs:292, 303 *)
Definition streamed (e : error) : Res error := map_flight_to_error (Tonic (flight_to_status (Tonic (error_to_status e)))).
(** Other errors of a worker: src/protocol/grpc/worker_service.rs:121-147, worker_client.rs:75-77. *)
Definition answered (e : error) : Res error := map_status_to_error (error_to_status e).
End Status.
