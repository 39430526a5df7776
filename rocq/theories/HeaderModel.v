(** Configuration extensions and user headers on their way to the workers.
    Model of /repo/src/config_extension_ext.rs, passthrough_headers.rs,
    coordinator/query_coordinator.rs:168-169, worker/worker_connection_pool.rs:105,
    worker/impl_coordinator_channel.rs:46-74, distributed_planner/distributed_config.rs:8-119. *)
From Verif Require Import Base.
From Coq Require Import Ascii String NArith DecimalString DecimalN.
Local Open Scope string_scope.

(** Running a fallible step over a list. *)
Fixpoint foldM {A B} (f : A -> B -> Res A) (l : list B) (a : A) : Res A :=
  match l with [] => Ok a | x :: l => let* a := f a x in foldM f l a end.

(** ** Strings *)

(** [str::strip_prefix], [str::starts_with]. *)
Fixpoint strip_prefix (p s : string) : option string :=
  match p, s with
  | EmptyString, _ => Some s
  | String a p, String b s => if Ascii.eqb a b then strip_prefix p s else None
  | String _ _, EmptyString => None
  end.
Definition starts_with (p s : string) : bool := match strip_prefix p s with Some _ => true | None => false end.
(** [str::trim_start_matches]: removes the pattern as often as it occurs at the start. *)
Fixpoint trim_n (n : nat) (p s : string) : string :=
  match n with
  | 0 => s
  | S n => match strip_prefix p s with Some s => trim_n n p s | None => s end
  end.
Definition trim_start_matches (p s : string) : string := trim_n (String.length s) p s.

Fixpoint all_chars (f : ascii -> bool) (s : string) : bool :=
  match s with EmptyString => true | String a s => f a && all_chars f s end.
Fixpoint map_chars (f : ascii -> ascii) (s : string) : string :=
  match s with EmptyString => EmptyString | String a s => String (f a) (map_chars f s) end.

(** ** HTTP headers (crate http) *)

Definition is_upper (a : ascii) : bool := let n := N_of_ascii a in ((65 <=? n) && (n <=? 90))%N.
Definition lower (a : ascii) : ascii := if is_upper a then ascii_of_N (N_of_ascii a + 32) else a.
Definition token_char (a : ascii) : bool :=
  let n := N_of_ascii a in
  (((48 <=? n) && (n <=? 57)) || ((65 <=? n) && (n <=? 90)) || ((97 <=? n) && (n <=? 122)) ||
   existsb (N.eqb n) [33; 35; 36; 37; 38; 39; 42; 43; 45; 46; 94; 95; 96; 124; 126])%N%bool.
(** [HeaderName::from_str]: checks the characters and makes letters small; at most 2^16 - 1 characters. *)
Definition header_name (s : string) : Res string :=
  if negb (s =? "") && all_chars token_char s && (N.of_nat (String.length s) <? 2 ^ 16)%N
  then Ok (map_chars lower s) else Err "invalid HTTP header name".
(** [HeaderValue::from_str] and [HeaderValue::to_str]: visible ASCII, blank and tab. *)
Definition value_char (a : ascii) : bool := let n := N_of_ascii a in (((32 <=? n) && (n <? 127)) || (n =? 9))%N%bool.
Definition header_value (s : string) : Res string := if all_chars value_char s then Ok s else Err "failed to parse header value".
Definition to_str (s : string) : Res string := if all_chars value_char s then Ok s else Err "Cannot parse header value".

(** [HeaderMap]: names with values in iteration order. A replaced header moves to the end here; it keeps its
    place in the crate. The crate's limit of 2^15 entries is not modelled. *)
Definition headers := list (string * string).
Definition has (h : headers) (k : string) : bool := existsb (fun '(k', _) => k' =? k) h.
Definition insert (h : headers) (k v : string) : headers := (filter (fun '(k', _) => negb (k' =? k)) h ++ [(k, v)])%list.
(** [HeaderMap::extend] with another map: its names replace those of [h]. *)
Definition extend (h h2 : headers) : headers := (filter (fun '(k, _) => negb (has h2 k)) h ++ h2)%list.

(** ** Configuration extensions *)

(** A type that implements [ConfigExtension]. *)
Record extension := mkExtension {
  PREFIX : string;
  state : Type;
  default : state;
  entries : state -> list (string * option string);
  set : state -> string -> string -> Res state
}.

(** config_extension_ext.rs:9 *)
Definition FLIGHT_METADATA_CONFIG_PREFIX : string := "x-datafusion-distributed-config-".

(** What the coordinator's [SessionConfig] holds: registered extensions with their entries, the prefixes of
    the [ConfigExtensionPropagationContext] (lines 90-93), and the passthrough headers. *)
Record session := mkSession {
  extensions : list (string * list (string * option string));
  prefixes : list string;
  passthrough : option headers
}.

(** Lines 112-126: one entry of an extension. *)
Definition send_entry (prefix : string) (h : headers) (entry : string * option string) : Res headers :=
  match snd entry with
  | None => Ok h
  | Some value =>
      let* name := header_name (FLIGHT_METADATA_CONFIG_PREFIX ++ prefix ++ "." ++ fst entry) in
      let* value := header_value value in
      Ok (insert h name value)
  end.
(** Lines 95-129 [get_config_extension_propagation_headers]. *)
Definition get_config_extension_propagation_headers (cfg : session) : Res headers :=
  foldM (fun h '(prefix, es) => if existsb (String.eqb prefix) (prefixes cfg) then foldM (send_entry prefix) es h else Ok h)
    (extensions cfg) [].

(** passthrough_headers.rs:15-31 *)
Definition set_passthrough_headers (cfg : session) (h : headers) : Res session :=
  if existsb (fun '(name, _) => starts_with FLIGHT_METADATA_CONFIG_PREFIX name) h
  then Err "Passthrough header uses reserved prefix"
  else Ok (mkSession (extensions cfg) (prefixes cfg) (Some h)).
(** Lines 35-39 *)
Definition get_passthrough_headers (cfg : session) : headers := match passthrough cfg with Some h => h | None => [] end.

(** query_coordinator.rs:168-169: headers of the request that sends a plan. *)
Definition plan_request_headers (cfg : session) : Res headers :=
  let* h := get_config_extension_propagation_headers cfg in
  Ok (extend h (get_passthrough_headers cfg)).
(** worker_connection_pool.rs:105: headers of the request that asks for rows. *)
Definition data_request_headers (cfg : session) : headers := get_passthrough_headers cfg.

(** Lines 61-78: one header. *)
Definition read_header (T : extension) (known_keys : list string) (s : state T) (kv : string * string) : Res (state T) :=
  let key := trim_start_matches FLIGHT_METADATA_CONFIG_PREFIX (fst kv) in
  let prefix := PREFIX T ++ "." in
  if starts_with prefix key then
    let key := trim_start_matches prefix key in
    if existsb (String.eqb key) known_keys then
      let* v := to_str (snd kv) in
      set T s key v
    else Ok s
  else Ok s.
(** Lines 24-88 [set_distributed_option_extension_from_headers]; [s]: the extension the worker had before, or
    its default. *)
Definition from_headers (T : extension) (s : state T) (h : headers) : Res (state T) :=
  foldM (read_header T (map fst (entries T s))) h s.

(** impl_coordinator_channel.rs:46-74 with a session builder that returns the configuration it is given: the
    worker's session for a plan that came with headers [h]. *)
Definition worker_session (T : extension) (h : headers) : Res session :=
  let* s := from_headers T (default T) h in
  Ok (mkSession [(PREFIX T, entries T s)] [PREFIX T] None).

(** ** The extension DistributedConfig (distributed_config.rs:8-119) *)

(** A value of an option. [f64] is left abstract, with its text form. *)
Section Distributed.
Context {f64 : Type} (f64_text : f64 -> string) (f64_parse : string -> option f64).

Inductive value := VUsize (n : N) | VF64 (f : f64) | VBool (b : bool) | VString (s : string).

(** Decimal digits without sign; Rust also accepts a leading plus sign. *)
Definition usize_text (n : N) : string := NilZero.string_of_uint (N.to_uint n).
Definition usize_parse (s : string) : option N :=
  match NilZero.uint_of_string s with
  | Some d => let n := N.of_uint d in if (n <? 2 ^ 64)%N then Some n else None
  | None => None
  end.

(** [extensions_options!]: display and parse. *)
Definition text (v : value) : string :=
  match v with
  | VUsize n => usize_text n
  | VF64 f => f64_text f
  | VBool true => "true"
  | VBool false => "false"
  | VString s => s
  end.
Definition parse_like (v : value) (s : string) : option value :=
  match v with
  | VUsize _ => option_map VUsize (usize_parse s)
  | VF64 _ => option_map VF64 (f64_parse s)
  | VBool _ => if s =? "true" then Some (VBool true) else if s =? "false" then Some (VBool false) else None
  | VString _ => Some (VString s)
  end.

Definition config := list (string * value).

Fixpoint set_option (c : config) (k s : string) : Res config :=
  match c with
  | [] => Err "Config value not found"
  | (k', v) :: c =>
      if k' =? k then match parse_like v s with Some v => Ok ((k', v) :: c) | None => Err "Error parsing option" end
      else let* c := set_option c k s in Ok ((k', v) :: c)
  end.

(** The options with their defaults. *)
Definition distributed_default (factor : f64) : config :=
  [("file_scan_config_bytes_per_partition", VUsize (16 * 1024 * 1024));
   ("cardinality_task_count_factor", VF64 factor);
   ("children_isolator_unions", VBool true);
   ("collect_metrics", VBool true);
   ("broadcast_joins", VBool true);
   ("compression", VString "lz4");
   ("shuffle_batch_size", VUsize 0);
   ("max_tasks_per_stage", VUsize 0);
   ("partial_reduce", VBool false);
   ("worker_connection_buffer_budget_bytes", VUsize (64 * 1024 * 1024));
   ("dynamic_task_count", VBool false);
   ("dynamic_bytes_per_partition", VUsize (16 * 1024 * 1024))].

Definition distributed (factor : f64) : extension :=
  mkExtension "distributed" config (distributed_default factor)
    (map (fun '(k, v) => (k, Some (text v)))) set_option.
End Distributed.
