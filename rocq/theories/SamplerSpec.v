(** Vocabulary of the theorems about sampled partitions. *)
From Verif Require Import Base CiuModel SamplerModel.
From Coq Require Import NArith ZArith SpecFloat.

Section Spec.
Context {val : Type} (val_dec : forall x y : val, {x = y} + {x <> y}) {err : Type}.
Notation source := (source val err).
Notation batch := (batch val).

(** The messages of a stream in its polls [pos .. pos + n - 1], up to its end. *)
Fixpoint messages_from (src : source) (pos n : nat) : list (batch + err) :=
  match n with
  | 0 => []
  | S n =>
      match src pos with
      | Pending => messages_from src (S pos) n
      | Ready r => r :: messages_from src (S pos) n
      | End => []
      end
  end.
Definition messages (src : source) (n : nat) := messages_from src 0 n.

(** How often the input of a partition was polled. *)
Definition polled (p : part val err) : nat := match p_task p with Reading pos | Chunk _ pos _ | Finished _ pos _ => pos end.

(** The stream ends, and these are all its messages. *)
Definition ends_with (src : source) (l : list (batch + err)) : Prop :=
  exists n, (forall m, m < n -> src m <> End) /\ src n = End /\ l = messages src n.

Definition is_prefix {A} (a b : list A) : Prop := exists c, b = a ++ c.

Definition error_free (src : source) : Prop := forall n e, src n <> Ready (inr e).

(** [e] is the first error of the stream. *)
Definition first_error (src : source) (e : err) : Prop :=
  exists n bs rest, messages src n = map inl bs ++ inr e :: rest.

(** Arrow's batches: all columns are there and have as many values as the batch has rows. *)
Definition wf_batch (n_cols : nat) (b : batch) : Prop :=
  List.length (b_cols b) = n_cols /\ Forall (fun c => List.length (c_vals c) = b_rows b) (b_cols b).
Definition wf_source (n_cols : nat) (src : source) : Prop := forall n b, src n = Ready (inl b) -> wf_batch n_cols b.

(** The values of column [c] over several batches. *)
Definition column_values (c : nat) (bs : list batch) : list (option val) :=
  flat_map (fun b => match nth_error (b_cols b) c with Some col => c_vals col | None => [] end) bs.
Definition column_bytes (c : nat) (bs : list batch) : nat :=
  list_sum (map (fun b => match nth_error (b_cols b) c with Some col => c_size col | None => 0 end) bs).
Definition is_null (v : option val) : bool := match v with None => true | Some _ => false end.

(** The distinct values other than null in the rows [indices] of a column. *)
Definition distinct (vs : list (option val)) (indices : list nat) : list val :=
  nodup val_dec (flat_map (fun i => match nth_error vs i with Some (Some v) => [v] | _ => [] end) indices).

(** [li] truly describes the batches [bs] of a partition. Of each column the ratio of distinct values is taken
    over at most [max_sample] rows. *)
Definition describes (max_sample n_cols : nat) (bs : list batch) (li : load_info) : Prop :=
  li_rows_ready li = list_sum (map b_rows bs) /\
  List.length (li_bytes_ready li) = n_cols /\ List.length (li_ndv li) = n_cols /\ List.length (li_nulls li) = n_cols /\
  (forall c, c < n_cols -> nth_error (li_bytes_ready li) c = Some (column_bytes c bs)) /\
  (0 < list_sum (map b_rows bs) ->
   (forall c, c < n_cols -> nth_error (li_nulls li) c =
      Some (f32_div (f32_of_nat (List.length (filter is_null (column_values c bs)))) (f32_of_nat (list_sum (map b_rows bs))))) /\
   exists indices, sample_of max_sample (list_sum (map b_rows bs)) indices /\
     forall c, c < n_cols -> nth_error (li_ndv li) c =
       Some (f32_div (f32_of_nat (List.length (distinct (column_values c bs) indices))) (f32_of_nat (List.length indices)))) /\
  (list_sum (map b_rows bs) = 0 -> Forall (eq (S754_zero false)) (li_nulls li ++ li_ndv li)).
End Spec.
