(** Property C103: the amounts that the console shows are right to the last digit shown. *)
From Coq Require Import ZArith NArith SpecFloat Reals Lra.
From Verif Require Import Base CiuModel CiuFloat AmountModel AmountProofs.
From Flocq Require Import Core.
Close Scope R_scope.

(** [shown] is the number [t], in tenths, and then the unit. *)
Definition number_then (t : Z) (suffix shown : string) : Prop :=
  shown = (text (Z.to_N (t / 10)) ++ "." ++ text (Z.to_N (t mod 10)) ++ suffix)%string.

(** What is shown, in tenths of the unit, is within 6 hundredths of the unit of the amount. *)
Definition about (t : Z) (unit amount : N) : Prop :=
  (10 * Z.abs (t * Z.of_N unit - 10 * Z.of_N amount) <= 6 * Z.of_N unit)%Z.

(** The units, with the amounts they are used for. *)
Definition byte_units : list (N * string * N) :=
  [(1024, " KB", 1048576); (1048576, " MB", 1073741824); (1073741824, " GB", 2 ^ 64)]%N%string.
Definition row_units : list (N * string * N) := [(1000, "K", 1000000); (1000000, "M", 2 ^ 64)]%N%string.

Lemma append_assoc a b c : ((a ++ b) ++ c = a ++ b ++ c)%string.
Proof. induction a as [|x a IH]; cbn; [reflexivity|]. now rewrite IH. Qed.
Lemma append_tenths t suffix : number_then t suffix (in_tenths t ++ suffix).
Proof. unfold number_then, in_tenths. rewrite !append_assoc. reflexivity. Qed.

(** C103, sizes. Every size below 1024 is shown exactly, every other one to within 6 hundredths of the unit shown, and of two
    sizes in the same unit the larger one is not shown with the smaller number. *)
Theorem C103_bytes :
  format_bytes 0 = "--"%string /\
  (forall b, (0 < b < 1024)%N -> format_bytes b = (text b ++ " B")%string) /\
  forall U suffix next, In (U, suffix, next) byte_units ->
    exists t, (forall b, (U <= b < next)%N -> number_then (t b) suffix (format_bytes b) /\ about (t b) U b) /\
              (forall b b', (b <= b')%N -> (t b <= t b')%Z).
Proof.
  split; [reflexivity|]. split.
  - intros b Hb. unfold format_bytes.
    destruct (N.eqb_spec b 0); [lia|]. destruct (N.leb_spec 1073741824 b); [lia|]. destruct (N.leb_spec 1048576 b); [lia|].
    destruct (N.leb_spec 1024 b); [lia|reflexivity].
  - assert (G : forall U next suffix, (1000 <= U <= 2 ^ 53)%N -> (next <= 2 ^ 64)%N ->
      (2 ^ 64 <= U * 20000000000000)%N \/ (next <= 1000000000)%N ->
      (forall b, (U <= b < next)%N -> format_bytes b = (fixed1 (f64_div (as_f64 b) (as_f64 U)) ++ suffix)%string) ->
      exists t, (forall b, (U <= b < next)%N -> number_then (t b) suffix (format_bytes b) /\ about (t b) U b) /\
              (forall b b', (b <= b')%N -> (t b <= t b')%Z)).
    { intros U next suffix HU Hn Hl Hf. destruct (amount U HU) as (t & Ht & Hm). exists t. split; [|exact Hm].
      intros b Hb. destruct (Ht b) as (E & C); [lia|]. rewrite Hf, E by assumption. split; [apply append_tenths|].
      apply C. destruct Hl; [left; assumption|right; lia]. }
    assert (S1 : (1000 <= 1024 <= 2 ^ 53)%N) by (split; vm_compute; discriminate).
    assert (S2 : (1000 <= 1048576 <= 2 ^ 53)%N) by (split; vm_compute; discriminate).
    assert (S3 : (1000 <= 1073741824 <= 2 ^ 53)%N) by (split; vm_compute; discriminate).
    intros U suffix next [E|[E|[E|[]]]]; injection E as <- <- <-.
    + apply G; [assumption|vm_compute; discriminate|right; vm_compute; discriminate|].
      intros b Hb. unfold format_bytes. destruct (N.eqb_spec b 0); [lia|]. destruct (N.leb_spec 1073741824 b); [lia|].
      destruct (N.leb_spec 1048576 b); [lia|]. destruct (N.leb_spec 1024 b); [reflexivity|lia].
    + apply G; [assumption|vm_compute; discriminate|left; vm_compute; discriminate|].
      intros b Hb. unfold format_bytes. destruct (N.eqb_spec b 0); [lia|]. destruct (N.leb_spec 1073741824 b); [lia|].
      destruct (N.leb_spec 1048576 b); [reflexivity|lia].
    + apply G; [assumption|vm_compute; discriminate|left; vm_compute; discriminate|].
      intros b Hb. unfold format_bytes. destruct (N.eqb_spec b 0); [lia|]. destruct (N.leb_spec 1073741824 b); [reflexivity|lia].
Qed.
Print Assumptions C103_bytes.

(** C103, rows. *)
Theorem C103_rows :
  format_row_count 0 = "--"%string /\
  (forall n, (0 < n < 1000)%N -> format_row_count n = text n) /\
  forall U suffix next, In (U, suffix, next) row_units ->
    exists t, (forall n, (U <= n < next)%N -> number_then (t n) suffix (format_row_count n) /\ about (t n) U n) /\
              (forall n n', (n <= n')%N -> (t n <= t n')%Z).
Proof.
  split; [reflexivity|]. split.
  - intros b Hb. unfold format_row_count.
    destruct (N.eqb_spec b 0); [lia|]. destruct (N.leb_spec 1000000 b); [lia|]. destruct (N.leb_spec 1000 b); [lia|reflexivity].
  - assert (G : forall U next suffix, (1000 <= U <= 2 ^ 53)%N -> (next <= 2 ^ 64)%N ->
      (2 ^ 64 <= U * 20000000000000)%N \/ (next <= 1000000000)%N ->
      (forall b, (U <= b < next)%N -> format_row_count b = (fixed1 (f64_div (as_f64 b) (as_f64 U)) ++ suffix)%string) ->
      exists t, (forall b, (U <= b < next)%N -> number_then (t b) suffix (format_row_count b) /\ about (t b) U b) /\
              (forall b b', (b <= b')%N -> (t b <= t b')%Z)).
    { intros U next suffix HU Hn Hl Hf. destruct (amount U HU) as (t & Ht & Hm). exists t. split; [|exact Hm].
      intros b Hb. destruct (Ht b) as (E & C); [lia|]. rewrite Hf, E by assumption. split; [apply append_tenths|].
      apply C. destruct Hl; [left; assumption|right; lia]. }
    assert (S1 : (1000 <= 1000 <= 2 ^ 53)%N) by (split; vm_compute; discriminate).
    assert (S2 : (1000 <= 1000000 <= 2 ^ 53)%N) by (split; vm_compute; discriminate).
    intros U suffix next [E|[E|[]]]; injection E as <- <- <-.
    + apply G; [assumption|vm_compute; discriminate|right; vm_compute; discriminate|].
      intros b Hb. unfold format_row_count. destruct (N.eqb_spec b 0); [lia|]. destruct (N.leb_spec 1000000 b); [lia|].
      destruct (N.leb_spec 1000 b); [reflexivity|lia].
    + apply G; [assumption|vm_compute; discriminate|left; vm_compute; discriminate|].
      intros b Hb. unfold format_row_count. destruct (N.eqb_spec b 0); [lia|]. destruct (N.leb_spec 1000000 b); [reflexivity|lia].
Qed.
Print Assumptions C103_rows.

(** C103, durations: what is shown is the duration, rounded down to the last unit shown. *)
Theorem C103_durations secs nanos : (nanos < 1000000000)%N ->
  let d := (secs * 1000000000 + nanos)%N in
  let is_ n unit := (n * unit <= d < (n + 1) * unit)%N in
  ((secs < 1)%N -> exists ms, format_duration secs nanos = (text ms ++ "ms")%string /\ is_ ms 1000000%N) /\
  ((1 <= secs < 60)%N -> exists s t, format_duration secs nanos = (text s ++ "." ++ text t ++ "s")%string /\
     (t < 10)%N /\ is_ (10 * s + t)%N 100000000%N) /\
  ((60 <= secs < 3600)%N -> exists m s, format_duration secs nanos = (text m ++ "m " ++ text s ++ "s")%string /\
     (s < 60)%N /\ is_ (60 * m + s)%N 1000000000%N) /\
  ((3600 <= secs)%N -> exists h m, format_duration secs nanos = (text h ++ "h " ++ text m ++ "m")%string /\
     (m < 60)%N /\ is_ (60 * h + m)%N 60000000000%N).
Proof.
  intros Hn d is_. subst d is_. cbv beta. unfold format_duration.
  pose proof (N.div_mod nanos 1000000 ltac:(discriminate)) as D1. pose proof (N.mod_lt nanos 1000000 ltac:(discriminate)) as M1.
  pose proof (N.div_mod (nanos / 1000000) 100 ltac:(discriminate)) as D2. pose proof (N.mod_lt (nanos / 1000000) 100 ltac:(discriminate)) as M2.
  pose proof (N.div_mod secs 60 ltac:(discriminate)) as D3. pose proof (N.mod_lt secs 60 ltac:(discriminate)) as M3.
  pose proof (N.div_mod secs 3600 ltac:(discriminate)) as D4. pose proof (N.mod_lt secs 3600 ltac:(discriminate)) as M4.
  pose proof (N.div_mod (secs mod 3600) 60 ltac:(discriminate)) as D5. pose proof (N.mod_lt (secs mod 3600) 60 ltac:(discriminate)) as M5.
  set (ms := (nanos / 1000000)%N) in *. set (ms_ := (nanos mod 1000000)%N) in *.
  set (t := (ms / 100)%N) in *. set (t_ := (ms mod 100)%N) in *.
  set (m := (secs / 60)%N) in *. set (s := (secs mod 60)%N) in *.
  set (hs := (secs / 3600)%N) in *. set (hs_ := (secs mod 3600)%N) in *.
  set (mm := (hs_ / 60)%N) in *. set (mm_ := (hs_ mod 60)%N) in *.
  clearbody ms_ t t_ m s mm mm_ ms hs hs_.
  repeat split; intros H.
  - destruct (N.eqb_spec secs 0); [|lia]. eexists. split; [reflexivity|]. lia.
  - destruct (N.eqb_spec secs 0); [lia|]. destruct (N.ltb_spec secs 60); [|lia]. do 2 eexists. split; [reflexivity|]. lia.
  - destruct (N.eqb_spec secs 0); [lia|]. destruct (N.ltb_spec secs 60); [lia|]. destruct (N.ltb_spec secs 3600); [|lia].
    do 2 eexists. split; [reflexivity|]. lia.
  - destruct (N.eqb_spec secs 0); [lia|]. destruct (N.ltb_spec secs 60); [lia|]. destruct (N.ltb_spec secs 3600); [lia|].
    do 2 eexists. split; [reflexivity|]. lia.
Qed.
Print Assumptions C103_durations.

(** C103, rates: [rate] is a double of value [r], which is positive. *)
Theorem C103_rates rate r : rep rate r -> (0 < r <= IZR (2 ^ 64))%R ->
  format_rows_throughput f64_zero = "0 rows out/s"%string /\
  ((r < 1000)%R -> exists n, format_rows_throughput rate = (text (Z.to_N n) ++ " rows out/s")%string /\ (Rabs (r - IZR n) <= / 2)%R) /\
  ((1000 <= r < 1000000)%R -> exists t, number_then t "K rows out/s" (format_rows_throughput rate) /\
     (Rabs (IZR t / 10 * 1000 - r) <= 6 / 100 * 1000)%R) /\
  ((1000000 <= r)%R -> exists t, number_then t "M rows out/s" (format_rows_throughput rate) /\
     (Rabs (IZR t / 10 * 1000000 - r) <= 6 / 100 * 1000000)%R).
Proof.
  intros Hx [H0 Hr]. split; [vm_compute; reflexivity|].
  assert (L6 : SFleb (as_f64 1000000) rate = Rle_bool 1000000 r).
  { apply leb_rep; [|exact Hx]. apply (as_f64_exact 1000000). vm_compute; discriminate. }
  assert (L3 : SFleb (as_f64 1000) rate = Rle_bool 1000 r).
  { apply leb_rep; [|exact Hx]. apply (as_f64_exact 1000). vm_compute; discriminate. }
  assert (Big : forall U : N, (1000 <= U <= 2 ^ 53)%N -> (IZR (Z.of_N U) <= r)%R -> (2 ^ 64 <= U * 20000000000000)%N \/ (r < 1000000000)%R ->
    fixed1 (f64_div rate (as_f64 U)) = in_tenths (tenths_of U r) /\
    (Rabs (IZR (tenths_of U r) / 10 * IZR (Z.of_N U) - r) <= 6 / 100 * IZR (Z.of_N U))%R).
  { intros U HU Hu Hl. split; [apply fixed1_quotient; [exact Hx|lia|split; assumption]|].
    assert (C : (Rabs (IZR (tenths_of U r) * IZR (Z.of_N U) - 10 * r) <= 6 / 10 * IZR (Z.of_N U))%R).
    { apply tenths_close; auto; [lra|]. replace (r - r)%R with 0%R by ring. rewrite Rabs_R0.
      pose proof u_pos. apply Rmult_le_pos; lra. }
    apply Rabs_le_inv in C. apply Rabs_le. lra. }
  unfold format_rows_throughput. rewrite L6, L3. split; [|split]; intros Hc.
  - rewrite Rle_bool_false by lra. rewrite Rle_bool_false by lra. exists (near (1 * r)). split.
    + unfold fixed0. rewrite (fixed_near 1 _ _ _ eq_refl Hx H0). reflexivity.
    + rewrite Rmult_1_l. apply Znearest_half.
  - rewrite Rle_bool_false by lra. rewrite Rle_bool_true by lra. destruct (Big 1000%N) as (E & C); [split; vm_compute; discriminate|apply Hc|right; lra|].
    exists (tenths_of 1000 r). rewrite E. split; [apply append_tenths|exact C].
  - rewrite Rle_bool_true by lra. destruct (Big 1000000%N) as (E & C); [split; vm_compute; discriminate|apply Hc|left; vm_compute; discriminate|].
    exists (tenths_of 1000000 r). rewrite E. split; [apply append_tenths|exact C].
Qed.
Print Assumptions C103_rates.

(** C103, the colour of a CPU usage. *)
Theorem C103_colours pct r : rep pct r ->
  (cpu_color pct = Red <-> (95 < r)%R) /\ (cpu_color pct = Green <-> (r <= 80)%R).
Proof.
  intros Hx. unfold cpu_color.
  rewrite (ltb_rep (as_f64 95) pct 95 r), (ltb_rep (as_f64 80) pct 80 r); auto;
    [|apply (as_f64_exact 80); vm_compute; discriminate|apply (as_f64_exact 95); vm_compute; discriminate].
  destruct (Rlt_bool_spec 95 r), (Rlt_bool_spec 80 r); repeat split; intros; try discriminate; try reflexivity; lra.
Qed.
Print Assumptions C103_colours.

(** The number shown is not always below that of the next unit: a megabyte less one byte is shown as 1024.0 KB, a million rows
    less one as 1000.0K. *)
Theorem C103_next_unit_refuted :
  format_bytes 1048575 = "1024.0 KB"%string /\ format_row_count 999999 = "1000.0K"%string.
Proof. split; vm_compute; reflexivity. Qed.
Print Assumptions C103_next_unit_refuted.

Example C103_bytes_met : format_bytes 1536 = "1.5 KB"%string /\ format_bytes (2 ^ 64 - 1) = "17179869184.0 GB"%string /\
  about 15 1024 1536.
Proof. split; [|split]; [vm_compute; reflexivity|vm_compute; reflexivity|]. unfold about. vm_compute. discriminate. Qed.
Example C103_rows_met : format_row_count 1234567 = "1.2M"%string /\ about 12 1000000 1234567.
Proof. split; [vm_compute; reflexivity|]. unfold about. vm_compute. discriminate. Qed.
Example C103_durations_met : format_duration 7265 999999999 = "2h 1m"%string /\ format_duration 59 999999999 = "59.9s"%string.
Proof. split; vm_compute; reflexivity. Qed.
Example C103_rates_met : exists rate, rep rate 2500 /\ format_rows_throughput rate = "2.5K rows out/s"%string.
Proof. exists (as_f64 2500). split; [apply (as_f64_exact 2500); vm_compute; discriminate|vm_compute; reflexivity]. Qed.
