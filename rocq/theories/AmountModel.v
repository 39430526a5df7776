(** How the console writes amounts: bytes, rows, rates, durations, and the colour of a CPU usage.
    Source: console/src/ui/format.rs. *)
From Coq Require Import ZArith NArith DecimalString SpecFloat.
From Verif Require Import Base CiuModel.

(** [{}] of a [u64]. *)
Definition text (n : N) : string := NilZero.string_of_uint (N.to_uint n).

(** [{:.1}] and [{:.0}] of an [f64] are code of the Rust library: it writes the decimal number nearest to the value of the double;
    of two nearest ones, the one that ends in an even digit. *)
Definition nearest (num den : Z) : Z :=
  let q := (num / den)%Z in
  match (2 * (num mod den) ?= den)%Z with
  | Lt => q
  | Gt => (q + 1)%Z
  | Eq => if Z.even q then q else (q + 1)%Z
  end.
(** The value of [m * 2^e], times [k], to the nearest integer. *)
Definition to_nearest (k : Z) (m : positive) (e : Z) : Z :=
  if (0 <=? e)%Z then (k * (Zpos m * 2 ^ e))%Z else nearest (k * Zpos m) (2 ^ (- e)).
Definition in_tenths (t : Z) : string := text (Z.to_N (t / 10)) ++ "." ++ text (Z.to_N (t mod 10)).
Definition sign_text (s : bool) : string := if s then "-" else "".
Definition fixed (k : Z) (digits : Z -> string) (x : f64) : string :=
  match x with
  | S754_zero s => sign_text s ++ digits 0%Z
  | S754_infinity s => sign_text s ++ "inf"
  | S754_nan => "NaN"
  | S754_finite s m e => sign_text s ++ digits (to_nearest k m e)
  end.
Definition fixed1 : f64 -> string := fixed 10 in_tenths.
Definition fixed0 : f64 -> string := fixed 1 (fun t => text (Z.to_N t)).

(** [n as f64] of a [u64]. *)
Definition as_f64 (n : N) : f64 := f64_of_Z (Z.of_N n).

(** format.rs:6-18 [format_bytes]. *)
Definition format_bytes (bytes : N) : string :=
  if (bytes =? 0)%N then "--"
  else if (1073741824 <=? bytes)%N then fixed1 (f64_div (as_f64 bytes) (as_f64 1073741824)) ++ " GB"
  else if (1048576 <=? bytes)%N then fixed1 (f64_div (as_f64 bytes) (as_f64 1048576)) ++ " MB"
  else if (1024 <=? bytes)%N then fixed1 (f64_div (as_f64 bytes) (as_f64 1024)) ++ " KB"
  else text bytes ++ " B".

(** format.rs:21-33 [format_duration], of a duration of [secs] seconds and [nanos] nanoseconds, as the library keeps it. *)
Definition format_duration (secs nanos : N) : string :=
  let millis := (nanos / 1000000)%N in
  if (secs =? 0)%N then text millis ++ "ms"
  else if (secs <? 60)%N then text secs ++ "." ++ text (millis / 100) ++ "s"
  else if (secs <? 3600)%N then text (secs / 60) ++ "m " ++ text (secs mod 60) ++ "s"
  else text (secs / 3600) ++ "h " ++ text ((secs mod 3600) / 60) ++ "m".

(** format.rs:37-47 [format_row_count]. *)
Definition format_row_count (rows : N) : string :=
  if (rows =? 0)%N then "--"
  else if (1000000 <=? rows)%N then fixed1 (f64_div (as_f64 rows) (as_f64 1000000)) ++ "M"
  else if (1000 <=? rows)%N then fixed1 (f64_div (as_f64 rows) (as_f64 1000)) ++ "K"
  else text rows.

(** format.rs:50-58 [format_rows_throughput]. *)
Definition format_rows_throughput (rate : f64) : string :=
  if SFleb (as_f64 1000000) rate then fixed1 (f64_div rate (as_f64 1000000)) ++ "M rows out/s"
  else if SFleb (as_f64 1000) rate then fixed1 (f64_div rate (as_f64 1000)) ++ "K rows out/s"
  else fixed0 rate ++ " rows out/s".

(** format.rs:61-69 [cpu_color]. *)
Inductive colour := Red | Yellow | Green.
Definition cpu_color (pct : f64) : colour :=
  if SFltb (as_f64 95) pct then Red else if SFltb (as_f64 80) pct then Yellow else Green.
