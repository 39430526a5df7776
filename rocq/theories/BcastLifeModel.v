(** Model of what execution_plans/broadcast.rs owns: who holds the cache of a partition, who keeps the task that fills it,
    and what is reserved in the memory pool. The queue, its consumers and [execute] are those of BcastModel.

    Rust's reference counts are written out: [l_refs] is the strong count of the [Arc] around [entries] (lines 219, 281),
    [l_tasks] that of the [Arc<SpawnedTask>] (line 200). Reservations are in the entries (line 188); the clone that a consumer
    gets is dropped before the batch is returned (line 171). *)
From Coq Require Import ZArith.
From Verif Require Import Base CiuModel BcastModel.

Section Life.
Context {batch err : Type}.
(** [get_array_memory_size], line 187. *)
Variable size : batch -> N.

(** A function changed at one place. *)
Definition set_at {A} (f : nat -> A) (i : nat) (v : A) : nat -> A := fun j => if j =? i then v else f j.

Record life := mkLife {
  l_base : @state batch err;
  l_node : bool;               (* whether anyone still holds the node *)
  l_gone : list (nat * nat);   (* the streams that were handed out and dropped *)
  l_panicked : list nat;       (* partitions whose input panicked *)
  l_aborted : list nat;        (* partitions whose task was aborted *)
  l_refs : nat -> nat;         (* strong counts of [entries] *)
  l_tasks : nat -> nat;        (* strong counts of the tasks *)
  l_pool : Z                   (* bytes reserved in the pool *)
}.

Definition life_init (nd : @node batch err) : life :=
  mkLife (init_state nd) true [] [] [] (fun _ => 0) (fun _ => 0) 0%Z.

(** The reservations of the entries: an error has none (line 192). *)
Definition entry_bytes (m : @msg batch err) : Z := match m with inl b => Z.of_N (size b) | inr _ => 0%Z end.
Definition entries_bytes (l : list (@msg batch err)) : Z := fold_right (fun m n => (entry_bytes m + n)%Z) 0%Z l.

(** What is given back when a strong count falls from [before] to [after]: dropping the entries drops the reservations. *)
Definition given_back (before after : nat) (entries : list (@msg batch err)) : Z :=
  if (0 <? before) && (after =? 0) then entries_bytes entries else 0%Z.

(** Line 187, [grow]: DataFusion's pools add without looking at their limit. *)
Definition grown (p p' : @producer batch err) : Z :=
  match p, p' with Running (inl b :: _), Pushed _ _ => Z.of_N (size b) | _, _ => 0%Z end.
(** The end of the task drops the queue, and with it a count of [entries]. *)
Definition producer_drops (p p' : @producer batch err) : nat := match p, p' with SenderDrop, Finished => 1 | _, _ => 0 end.

(** What dropping the node takes from a count of [entries] (the consumers not handed out, line 168) and gives back. *)
Definition slot_drops (s : @slot_state batch err) : nat :=
  match s with Live r => List.length (r_consumers r) - r_popped r | _ => 0 end.
Definition slot_task (s : @slot_state batch err) : nat := match s with Live _ => 1 | _ => 0 end.
Definition slot_at (st : @state batch err) (real : nat) : slot_state := nth real (st_slots st) Unused.
Definition slot_entries (s : @slot_state batch err) : list msg := match s with Live r => q_entries (r_queue r) | _ => [] end.

Inductive life_step (nd : @node batch err) : life -> life -> Prop :=
(** [execute], lines 153-215. A new slot has a count of [entries] for the queue and for each consumer, and one of the task in
    the node; a stream handed out takes a consumer with it and a count of the task (lines 203, 212). *)
| life_execute l partition real s inp s' ans :
    l_node l = true -> n_input nd <> [] ->
    real = partition mod List.length (n_input nd) ->
    nth_error (st_slots (l_base l)) real = Some s -> nth_error (n_input nd) real = Some inp ->
    pop_consumer real (match s with Unused => init_slot nd inp | _ => s end) = (s', ans) ->
    life_step nd l
      (mkLife (mkState (upd (st_slots (l_base l)) real s')
                (match s, nth_error (st_executed (l_base l)) real with
                 | Unused, Some k => upd (st_executed (l_base l)) real (k + 1)
                 | _, _ => st_executed (l_base l) end)
                (st_answers (l_base l) ++ [(partition, ans)]))
         true (l_gone l) (l_panicked l) (l_aborted l)
         (match s, s' with Unused, Live _ => set_at (l_refs l) real (1 + n_consumers nd) | _, _ => l_refs l end)
         (set_at (l_tasks l) real
            (l_tasks l real + match s, s' with Unused, Live _ => 1 | _, _ => 0 end + match ans with inl _ => 1 | inr _ => 0 end))
         (l_pool l))
(** The task (lines 180-198) goes on. *)
| life_produce l real r q' p' :
    nth_error (st_slots (l_base l)) real = Some (Live r) ->
    producer_step (r_queue r, r_producer r, r_crashed r) (q', p', r_crashed r) ->
    life_step nd l
      (let refs := l_refs l real - producer_drops (r_producer r) p' in
       mkLife (mkState (upd (st_slots (l_base l)) real (Live (mkRunning q' p' (r_consumers r) (r_popped r) (r_crashed r))))
                (st_executed (l_base l)) (st_answers (l_base l)))
         (l_node l) (l_gone l) (l_panicked l) (l_aborted l) (set_at (l_refs l) real refs) (l_tasks l)
         (l_pool l + grown (r_producer r) p' - given_back (l_refs l real) refs (q_entries q')))
(** The input panics (line 183). *)
| life_panic l real r todo :
    nth_error (st_slots (l_base l)) real = Some (Live r) -> r_producer r = Running todo ->
    life_step nd l
      (mkLife (mkState (upd (st_slots (l_base l)) real (Live (mkRunning (r_queue r) Closing (r_consumers r) (r_popped r) true)))
                (st_executed (l_base l)) (st_answers (l_base l)))
         (l_node l) (l_gone l) (real :: l_panicked l) (l_aborted l) (l_refs l) (l_tasks l) (l_pool l))
(** A [SpawnedTask] is aborted when it is dropped; the abort takes effect where the task awaits (line 183). *)
| life_abort l real r todo :
    nth_error (st_slots (l_base l)) real = Some (Live r) -> r_producer r = Running todo -> l_tasks l real = 0 ->
    life_step nd l
      (mkLife (mkState (upd (st_slots (l_base l)) real (Live (mkRunning (r_queue r) Closing (r_consumers r) (r_popped r) true)))
                (st_executed (l_base l)) (st_answers (l_base l)))
         (l_node l) (l_gone l) (l_panicked l) (real :: l_aborted l) (l_refs l) (l_tasks l) (l_pool l))
(** A stream is polled. *)
| life_poll l real r k c :
    nth_error (st_slots (l_base l)) real = Some (Live r) -> k < r_popped r -> nth_error (r_consumers r) k = Some c ->
    ~ In (real, k) (l_gone l) ->
    life_step nd l
      (mkLife (mkState (upd (st_slots (l_base l)) real
                  (Live (mkRunning (r_queue r) (r_producer r) (upd (r_consumers r) k (consumer_next (r_queue r) c))
                           (r_popped r) (r_crashed r)))) (st_executed (l_base l)) (st_answers (l_base l)))
         (l_node l) (l_gone l) (l_panicked l) (l_aborted l) (l_refs l) (l_tasks l) (l_pool l))
(** A stream is dropped, not while it is being polled: its consumer and its count of the task go with it. *)
| life_drop_stream l real r k c :
    nth_error (st_slots (l_base l)) real = Some (Live r) -> k < r_popped r -> nth_error (r_consumers r) k = Some c ->
    c_pc c = Outside -> ~ In (real, k) (l_gone l) ->
    life_step nd l
      (mkLife (l_base l) (l_node l) ((real, k) :: l_gone l) (l_panicked l) (l_aborted l)
         (set_at (l_refs l) real (l_refs l real - 1)) (set_at (l_tasks l) real (l_tasks l real - 1))
         (l_pool l - given_back (l_refs l real) (l_refs l real - 1) (q_entries (r_queue r))))
(** The node is dropped, with its [queues]: all consumers that were not handed out, and a count of each task. *)
| life_drop_node l :
    l_node l = true ->
    life_step nd l
      (mkLife (l_base l) false (l_gone l) (l_panicked l) (l_aborted l)
         (fun real => l_refs l real - slot_drops (slot_at (l_base l) real))
         (fun real => l_tasks l real - slot_task (slot_at (l_base l) real))
         (l_pool l -
          fold_right (fun real n => (given_back (l_refs l real) (l_refs l real - slot_drops (slot_at (l_base l) real))
                                      (slot_entries (slot_at (l_base l) real)) + n)%Z)
            0%Z (seq 0 (List.length (st_slots (l_base l)))))).
End Life.
