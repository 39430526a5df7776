(** Protobuf messages on the wire, as written and read by prost 0.14 (an external library) from its derived code.

    The messages themselves (their fields, tags and types) are in the files that use this one; they are parameters here. Bytes
    are numbers below 256. [usize] has 64 bits. Simplification: an unknown field encoded as a group (deprecated in protobuf,
    and written by no derived code) is an error; prost skips it. *)
From Verif Require Import Base CiuModel.
From Coq Require Import NArith Lia.
Local Open Scope N_scope.

(** ** Types and messages *)

(** Types of fields: [TVarint] stands for uint64, int64, int32, their 64 bits as sent (an int32 is sign-extended; the reader
    cuts it), [TLib] for messages of other libraries, given by their encoding. [TString] and [TBytes] as in Rust. *)
Inductive ty (name : Type) : Type :=
| TVarint | TBool | TF64 | TF32 | TString | TBytes | TLib | TMsg (n : name).
Arguments TVarint {name}. Arguments TBool {name}. Arguments TF64 {name}. Arguments TF32 {name}.
Arguments TString {name}. Arguments TBytes {name}. Arguments TLib {name}. Arguments TMsg {name} n.

(** Fields: [Implicit] is a plain scalar (not sent if it has its default value), [Optional] an [Option], [Repeated] a [Vec],
    [Oneof] a Rust enum in an [Option], with the tags listed at the field and those of the enum. *)
Inductive field (name : Type) : Type :=
| Implicit (tag : N) (t : ty name)
| Optional (tag : N) (t : ty name)
| Repeated (tag : N) (t : ty name)
| Oneof (tags : list N) (variants : list (N * ty name)).
Arguments Implicit {name} tag t. Arguments Optional {name} tag t. Arguments Repeated {name} tag t. Arguments Oneof {name} tags variants.

(** Values: numbers below 2^64 (or 2^32), strings and bytes, and messages, with for each field the values it has, each with its
    tag. *)
Inductive value (name : Type) : Type :=
| Varint (n : N)
| Fixed64 (n : N)
| Fixed32 (n : N)
| Blob (l : list N)
| Message (n : name) (fields : list (list (N * value name))).
Arguments Varint {name} n. Arguments Fixed64 {name} n. Arguments Fixed32 {name} n. Arguments Blob {name} l. Arguments Message {name} n fields.

Notation content name := (list (N * value name)).

(** ** Numbers *)

(** prost's [encode_varint] and [decode_varint]: seven bits in each byte, the lowest first, at most ten bytes. *)
Fixpoint put_varint (fuel : nat) (n : N) : list N :=
  match fuel with
  | O => []
  | S fuel => if n <? 128 then [n] else (n mod 128 + 128) :: put_varint fuel (n / 128)
  end.
Definition encode_varint (n : N) : list N := put_varint 10 n.
Fixpoint get_varint (more : nat) (bs : list N) : Res (N * list N) :=
  match more, bs with
  | S more, b :: bs =>
      if b <? 128 then
        if (Nat.eqb more 0) && (2 <=? b) then Err "invalid varint" else Ok (b, bs)
      else let* r := get_varint more bs in Ok (b - 128 + 128 * fst r, snd r)
  | _, _ => Err "invalid varint"
  end.
Definition decode_varint (bs : list N) : Res (N * list N) := get_varint 10 bs.

(** Little-endian numbers. *)
Fixpoint put_le (bytes : nat) (n : N) : list N :=
  match bytes with O => [] | S k => n mod 256 :: put_le k (n / 256) end.
Fixpoint get_le (bytes : nat) (bs : list N) : Res (N * list N) :=
  match bytes with
  | O => Ok (0, bs)
  | S k => match bs with
           | b :: bs => let* r := get_le k bs in Ok (b + 256 * fst r, snd r)
           | [] => Err "buffer underflow"
           end
  end.

(** A byte string preceded by its length. *)
Definition put_len (l : list N) : list N := encode_varint (N.of_nat (List.length l)) ++ l.
Definition get_len (bs : list N) : Res (list N * list N) :=
  let* r := decode_varint bs in
  if N.of_nat (List.length (snd r)) <? fst r then Err "buffer underflow"
  else Ok (firstn (N.to_nat (fst r)) (snd r), skipn (N.to_nat (fst r)) (snd r)).

(** The key before a value: its tag and its wire type (0 varint, 1 64 bits, 2 with length, 3 and 4 groups, 5 32 bits). *)
Definition encode_key (tag wire : N) : list N := encode_varint (tag * 8 + wire).
Definition decode_key (bs : list N) : Res (N * N * list N) :=
  let* r := decode_varint bs in
  if 2 ^ 32 <=? fst r then Err "invalid key value"
  else if 5 <? fst r mod 8 then Err "invalid wire type value"
  else if fst r / 8 =? 0 then Err "invalid tag value: 0"
  else Ok (fst r / 8, fst r mod 8, snd r).

Section Wire.
Variable name : Type.
Variable fields_of : name -> list (field name).
(** [String]s are valid UTF-8; prost checks it. *)
Variable utf8 : list N -> bool.

Notation ty := (ty name).
Notation field := (field name).
Notation value := (value name).

Definition wire_type (t : ty) : N :=
  match t with TVarint | TBool => 0 | TF64 => 1 | TF32 => 5 | TString | TBytes | TLib | TMsg _ => 2 end.
Definition packed (t : ty) : bool := match t with TVarint | TBool | TF64 | TF32 => true | _ => false end.
Definition default_value (t : ty) : value :=
  match t with
  | TVarint | TBool => Varint 0 | TF64 => Fixed64 0 | TF32 => Fixed32 0
  | TString | TBytes | TLib | TMsg _ => Blob []
  end.
(** prost leaves out a plain scalar equal to its default value; floating-point -0 is equal to 0. *)
Definition is_default (v : value) : bool :=
  match v with Varint n => n =? 0 | Fixed64 n => (n =? 0) || (n =? 2 ^ 63) | Fixed32 n => (n =? 0) || (n =? 2 ^ 31) | Blob l => match l with [] => true | _ => false end | Message _ _ => false end.

(** ** Writing *)

(** Values of a field as written: the tag, whether it is the default, the bytes. *)
Definition written := list (N * (bool * list N)).
Definition write_plain (t : ty) (c : written) : list N :=
  flat_map (fun x => encode_key (fst x) (wire_type t) ++ snd (snd x)) c.
Definition write_field (f : field) (c : written) : list N :=
  match f with
  | Implicit _ t => match c with [(tag, (d, bs))] => if d : bool then [] else write_plain t c | _ => [] end
  | Optional _ t => write_plain t c
  | Repeated tag t =>
      if packed t then match c with [] => [] | _ => encode_key tag 2 ++ put_len (flat_map (fun x => snd (snd x)) c) end
      else write_plain t c
  | Oneof _ variants =>
      match c with
      | [(tag, _)] => match find (fun x => fst x =? tag) variants with Some (_, t) => write_plain t c | None => [] end
      | _ => []
      end
  end.
Fixpoint write_fields (fs : list field) (cs : list written) : list N :=
  match fs, cs with f :: fs, c :: cs => write_field f c ++ write_fields fs cs | _, _ => [] end.

Fixpoint payload (v : value) : list N :=
  match v with
  | Varint n => encode_varint n
  | Fixed64 n => put_le 8 n
  | Fixed32 n => put_le 4 n
  | Blob l => put_len l
  | Message n contents =>
      put_len (write_fields (fields_of n) (map (map (fun x => (fst x, (is_default (snd x), payload (snd x))))) contents))
  end.
Definition write_content (c : (content name)) : written := map (fun x => (fst x, (is_default (snd x), payload (snd x)))) c.

(** [Message::encode]. *)
Definition encode (n : name) (contents : list (content name)) : list N := write_fields (fields_of n) (map write_content contents).

(** ** Reading *)

(** [Message::default]. *)
Definition default_content (f : field) : (content name) :=
  match f with Implicit tag t => [(tag, default_value t)] | _ => [] end.
Definition default_message (n : name) : list (content name) := map default_content (fields_of n).

Definition has_tag (tag : N) (f : field) : bool :=
  match f with
  | Implicit t _ | Optional t _ | Repeated t _ => t =? tag
  | Oneof tags _ => existsb (N.eqb tag) tags
  end.
Fixpoint find_field (tag : N) (fs : list field) : option (nat * field) :=
  match fs with
  | [] => None
  | f :: fs => if has_tag tag f then Some (0%nat, f) else match find_field tag fs with Some (i, f) => Some (S i, f) | None => None end
  end.

(** [sub] reads a message into an existing one. *)
Definition read_value (sub : name -> list (content name) -> list N -> Res (list (content name))) (t : ty) (old : option value) (wire : N) (bs : list N)
  : Res (value * list N) :=
  if negb (wire =? wire_type t) then Err "invalid wire type" else
  match t with
  | TVarint => let* r := decode_varint bs in Ok (Varint (fst r), snd r)
  | TBool => let* r := decode_varint bs in Ok (Varint (if fst r =? 0 then 0 else 1), snd r)
  | TF64 => let* r := get_le 8 bs in Ok (Fixed64 (fst r), snd r)
  | TF32 => let* r := get_le 4 bs in Ok (Fixed32 (fst r), snd r)
  | TBytes | TLib => let* r := get_len bs in Ok (Blob (fst r), snd r)
  | TString => let* r := get_len bs in if utf8 (fst r) then Ok (Blob (fst r), snd r) else Err "invalid string value: data is not UTF-8 encoded"
  | TMsg n =>
      let* r := get_len bs in
      let* m := sub n (match old with Some (Message _ m) => m | _ => default_message n end) (fst r) in
      Ok (Message n m, snd r)
  end.

(** Numbers packed into one byte string; every number takes at least a byte. *)
Fixpoint read_packed (fuel : nat) (t : ty) (tag : N) (bs : list N) : Res (content name) :=
  match bs, fuel with
  | [], _ => Ok []
  | _, O => Err "unreachable"
  | _, S fuel =>
      let* r := read_value (fun _ _ _ => Err "unreachable") t None (wire_type t) bs in
      let* c := read_packed fuel t tag (snd r) in
      Ok ((tag, fst r) :: c)
  end.

(** [skip_field]. *)
Definition skip (wire : N) (bs : list N) : Res (list N) :=
  if wire =? 0 then let* r := decode_varint bs in Ok (snd r)
  else if wire =? 1 then let* r := get_le 8 bs in Ok (snd r)
  else if wire =? 5 then let* r := get_le 4 bs in Ok (snd r)
  else if wire =? 2 then let* r := get_len bs in Ok (snd r)
  else Err "unexpected end group tag".

Definition read_field (sub : name -> list (content name) -> list N -> Res (list (content name))) (f : field) (tag wire : N) (old : (content name)) (bs : list N)
  : Res ((content name) * list N) :=
  match f with
  | Implicit _ t => let* r := read_value sub t None wire bs in Ok ([(tag, fst r)], snd r)
  | Optional _ t => let* r := read_value sub t (option_map snd (hd_error old)) wire bs in Ok ([(tag, fst r)], snd r)
  | Repeated _ t =>
      if packed t && (wire =? 2) then
        let* r := get_len bs in
        let* c := read_packed (List.length (fst r)) t tag (fst r) in
        Ok (old ++ c, snd r)
      else let* r := read_value sub t None wire bs in Ok (old ++ [(tag, fst r)], snd r)
  | Oneof _ variants =>
      match find (fun x => fst x =? tag) variants with
      | None => Panic "internal error: entered unreachable code: invalid tag"
      | Some (_, t) =>
          let same := match old with (tag', v) :: _ => if tag' =? tag then Some v else None | [] => None end in
          let* r := read_value sub t same wire bs in Ok ([(tag, fst r)], snd r)
      end
  end.

(** [merge_loop] and the derived [merge_field]; every key takes at least a byte. *)
Fixpoint read_fields (fuel : nat) (sub : name -> list (content name) -> list N -> Res (list (content name))) (fs : list field)
    (st : list (content name)) (bs : list N) : Res (list (content name)) :=
  match bs, fuel with
  | [], _ => Ok st
  | _, O => Err "unreachable"
  | _, S fuel =>
      let* k := decode_key bs in
      let '(tag, wire, bs) := k in
      match find_field tag fs with
      | None => let* bs := skip wire bs in read_fields fuel sub fs st bs
      | Some (i, f) =>
          let* r := read_field sub f tag wire (nth i st []) bs in
          read_fields fuel sub fs (upd st i (fst r)) (snd r)
      end
  end.

(** Messages inside messages: [depth] further levels are read; prost's recursion limit. *)
Fixpoint read_message (depth : nat) (n : name) (st : list (content name)) (bs : list N) : Res (list (content name)) :=
  read_fields (List.length bs)
    (match depth with O => fun _ _ _ => Err "recursion limit reached" | S d => read_message d end) (fields_of n) st bs.

(** [Message::decode]; [RECURSION_LIMIT] is 100. *)
Definition decode (n : name) (bs : list N) : Res (list (content name)) := read_message 100 n (default_message n) bs.
End Wire.
