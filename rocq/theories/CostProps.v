(** Properties of the cost estimate: C68-C71. *)
From Verif Require Import Base CiuModel SamplerModel GatherModel GatherFloat DynModel DynProofs CostModel CostSpec CostFloat CostProofs CostPlans.
From Coq Require Import ZArith NArith SpecFloat Lia.
Local Open Scope N_scope.

Lemma says_value p n : says p n <-> get_value p = Some n.
Proof.
  unfold says. destruct p; cbn; split; intros H; try (now destruct H as [H|H]; inversion H); try discriminate; injection H as ->; auto.
Qed.
Lemma column_value s i n : column_says s i n <-> column_size i (Some s) = Some n.
Proof.
  unfold column_says, column_size. split.
  - intros (c & -> & H). now apply says_value.
  - destruct (nth_error (columns s) i) as [c|]; [|discriminate]. intros H. exists c. split; [reflexivity|now apply says_value].
Qed.
Lemma last_app {A} (l : list A) x : last_of (l ++ [x]) = Some x.
Proof. unfold last_of. rewrite app_length. cbn. rewrite nth_error_app2 by lia. replace (_ - _)%nat with 0%nat by lia. reflexivity. Qed.
Lemma last_inv {A} (l : list A) x : last_of l = Some x -> exists k, l = k ++ [x].
Proof.
  destruct l as [|a l] using rev_ind; [discriminate|]. intros H. rewrite last_app in H. injection H as ->. now exists l.
Qed.
Lemma size_in_cost out ins l n : size_in out ins l n <-> linear_cost out ins l = Some n.
Proof.
  split.
  - destruct 1; cbn [linear_cost hd_error]; rewrite ?last_app; try (now apply says_value); now apply column_value.
  - destruct l; cbn [linear_cost]; intros H; try (destruct ins as [|s0 ins]; [discriminate|cbn [hd_error] in H]).
    + apply in_input_column. now apply column_value.
    + apply in_input. now apply says_value.
    + apply in_left_column. now apply column_value.
    + apply in_left. now apply says_value.
    + destruct (last_of (s0 :: ins)) as [s1|] eqn:E; [|discriminate]. apply last_inv in E as [k E]. rewrite E. apply in_right_column. now apply column_value.
    + destruct (last_of (s0 :: ins)) as [s1|] eqn:E; [|discriminate]. apply last_inv in E as [k E]. rewrite E. apply in_right. now apply says_value.
    + apply in_output. now apply says_value.
Qed.

Lemma read_sizes out ins L sz : (forall l, In l L -> size_in out ins l (sz l)) ->
  forallb (known out ins) L = true /\ (forall l, In l L -> size_of out ins l = sz l).
Proof.
  intros H. split.
  - apply forallb_forall. intros l Hl. unfold known. now rewrite (proj1 (size_in_cost _ _ _ _) (H l Hl)).
  - intros l Hl. unfold size_of. now rewrite (proj1 (size_in_cost _ _ _ _) (H l Hl)).
Qed.
Lemma unread_sizes out ins L l : In l L -> (forall n, ~ size_in out ins l n) -> forallb (known out ins) L = false.
Proof.
  intros Hl H. destruct (forallb _ L) eqn:E; [|reflexivity]. rewrite forallb_forall in E. specialize (E l Hl).
  unfold known in E. destruct (linear_cost out ins l) as [n|] eqn:En; [|discriminate]. destruct (H n). now apply size_in_cost.
Qed.
Lemma denotes_known checks out ins c F L sz : usize_stats out -> Forall usize_stats ins -> denotes c F L ->
  (forall l, In l L -> size_in out ins l (sz l)) -> cost checks out ins c = Ok (Some (N.min (F sz) usize_max)).
Proof.
  intros HO HI D HS. rewrite (denotes_cost checks out ins c F L HO HI D).
  destruct (read_sizes _ _ _ _ HS) as [-> E]. now rewrite (denotes_local _ _ _ _ _ D E).
Qed.

Section Props.
Variable f32_log2 : f32 -> f32.
Variables (out : stats) (ins : list stats).
Hypothesis (Hout : usize_stats out) (Hins : Forall usize_stats ins).

(** C70. What an operator costs in computing, when the sizes are known... *)
Theorem C70_cpu_cost checks o sz : is_sort o = false -> fixed_work o <= 2 ^ 24 ->
  (forall l, In l (reads o) -> size_in out ins l (sz l)) ->
  cost checks out ins (complexity_cpu f32_log2 o) = Ok (Some (N.min (work sz o) usize_max)).
Proof using Hout Hins.
  intros HS HB HR. apply (denotes_known checks out ins _ (fun sz => work sz o) (reads o) sz Hout Hins); [|exact HR]. now apply cpu_den.
Qed.
(** ... of a sort: every byte is handled once per bit of what is sorted, *)
Theorem C70_sort_cost checks by_ fetch sz : fixed_work (Sort by_ fetch) <= 2 ^ 24 ->
  (forall l, In l (reads (Sort by_ fetch)) -> size_in out ins l (sz l)) ->
  let n := N.min (work sz (Sort by_ fetch)) usize_max in
  let m := if fetch then sz AllOutputColumns else n in
  n * N.log2 m <= usize_max ->
  cost checks out ins (complexity_cpu f32_log2 (Sort by_ fetch)) = Ok (Some (n * N.log2 m)).
Proof using Hout Hins.
  intros HB HR n m HM. destruct (sort_term f32_log2 by_ fetch HB) as (input & D & ->).
  assert (Ci : cost checks out ins input = Ok (Some n)).
  { apply (denotes_known checks out ins input _ _ sz Hout Hins D). intros l Hl. apply HR. cbn [reads].
    destruct Hl as [<-|Hl]; [now left|right; apply in_or_app; now left]. }
  cbn [cost]. rewrite Ci. cbn [bind].
  assert (Cm : cost checks out ins (if fetch then Linear AllOutputColumns else input) = Ok (Some m)).
  { destruct fetch; [|exact Ci]. cbn [cost]. f_equal. apply size_in_cost. apply HR. right. apply in_or_app. right. now left. }
  rewrite Cm. cbn [bind]. rewrite log2_0. unfold usize_mul. apply N.leb_le in HM. rewrite HM. reflexivity.
Qed.
(** ... and when one of them is not: nothing is known then. *)
Theorem C70_unknown_cost checks o l : fixed_work o <= 2 ^ 24 -> In l (reads o) -> (forall n, ~ size_in out ins l n) ->
  cost checks out ins (complexity_cpu f32_log2 o) = Ok None.
Proof using Hout Hins.
  intros HB Hl HU. destruct (is_sort o) eqn:HS.
  - destruct o as [| |by_ fetch| | | | | | | | | | | | | | | | | | |]; try discriminate.
    destruct (sort_term f32_log2 by_ fetch HB) as (input & D & ->).
    pose proof (denotes_cost checks out ins input _ _ Hout Hins D) as Ci. cbn [cost]. rewrite Ci. cbn [bind reads] in *.
    destruct (forallb (known out ins) (AllColumns :: keys_reads by_)) eqn:E; [|reflexivity].
    destruct fetch.
    + cbn [cost bind]. destruct (linear_cost out ins AllOutputColumns) as [n|] eqn:EO; [|reflexivity].
      exfalso. rewrite forallb_forall in E. destruct Hl as [<-|Hl].
      * specialize (E AllColumns (or_introl eq_refl)). unfold known in E. destruct (linear_cost out ins AllColumns) as [k|] eqn:EK; [|discriminate].
        apply (HU k). now apply size_in_cost.
      * apply in_app_or in Hl as [Hl|[<-|[]]]; [|apply (HU n); now apply size_in_cost].
        specialize (E l (or_intror Hl)). unfold known in E. destruct (linear_cost out ins l) as [k|] eqn:EK; [|discriminate].
        apply (HU k). now apply size_in_cost.
    + exfalso. rewrite app_nil_r in Hl. rewrite (unread_sizes out ins _ l) in E; [discriminate|exact Hl|assumption].
  - rewrite (denotes_cost checks out ins _ _ _ Hout Hins (cpu_den f32_log2 o HS HB)).
    now rewrite (unread_sizes out ins _ l).
Qed.
(** Memory and network. *)
Theorem C70_memory_cost checks o sz : (forall l, In l (memory_reads o) -> size_in out ins l (sz l)) ->
  cost checks out ins (complexity_memory o) = Ok (Some (N.min (memory_work sz o) usize_max)).
Proof using Hout Hins.
  intros HR. apply (denotes_known checks out ins _ (fun sz => memory_work sz o) (memory_reads o) sz Hout Hins); [|exact HR].
  assert (Z0 : denotes (Constant (f32_of_N 0)) (fun _ => 0) []).
  { split; [apply whole_wf with 0; apply whole_of_N; lia|]. split; [reflexivity|apply same_refl]. }
  destruct o; cbn [complexity_memory memory_work memory_reads]; try apply denotes_linear; try apply denotes_one; try exact Z0.
  - destruct fetch; [apply denotes_linear|apply double_den].
  - apply (denotes_plus _ _ _ _ _ _ (denotes_linear AllColumnsFromLeft) (denotes_linear AllColumnsFromRight)). unfold z. lia.
  - destruct no_grouping; [apply denotes_one|apply denotes_linear].
Qed.
Theorem C70_network_cost checks o child sz : (forall l, In l (network_reads o) -> size_in out ins l (sz l)) ->
  (forall n, child = Some (Bcast n) -> N.of_nat n <= 2 ^ 24) ->
  cost checks out ins (complexity_network o child) = Ok (Some (N.min (network_work sz o child) usize_max)).
Proof using Hout Hins.
  intros HR HN. destruct o; try reflexivity.
  assert (S : linear_cost out ins AllOutputColumns = Some (sz AllOutputColumns)).
  { apply size_in_cost, HR. now left. }
  assert (L : cost checks out ins (Linear AllOutputColumns) = Ok (Some (N.min (sz AllOutputColumns) usize_max))).
  { cbn [cost]. rewrite S, N.min_l; [reflexivity|]. now apply (linear_usize out ins AllOutputColumns). }
  destruct child as [[]|]; try exact L.
  cbn [complexity_network multiply cost]. rewrite S. cbn [bind]. unfold f32_of_nat.
  rewrite (whole_usize _ _ (whole_of_N _ (HN _ eq_refl))). unfold saturating_mul. cbn [network_work]. do 3 f_equal. lia.
Qed.
End Props.
Print Assumptions C70_cpu_cost.
Print Assumptions C70_sort_cost.
Print Assumptions C70_unknown_cost.
Print Assumptions C70_memory_cost.
Print Assumptions C70_network_cost.

(** C68. Unless the estimate overflows, a plan costs at least what any part of it costs. *)
Theorem C68_parts_cost_no_more_partial f32_log2 checks p q k k_checked :
  calculate_cost f32_log2 true p = Ok k_checked -> calculate_cost f32_log2 checks p = Ok k -> subplan q p ->
  exists k', calculate_cost f32_log2 checks q = Ok k' /\ costs_le k' k.
Proof.
  unfold calculate_cost. intros H Hk HS. destruct (f f32_log2 true p) as [[k0 s]| |] eqn:E; try discriminate.
  rewrite (f_any f32_log2 checks p _ E) in Hk. cbn in Hk. injection Hk as <-.
  destruct (part_le f32_log2 p q HS _ _ E) as (k' & s' & Hq & L). exists k'. split; [|exact L].
  now rewrite (f_any f32_log2 checks q _ Hq).
Qed.
Print Assumptions C68_parts_cost_no_more_partial.

(** C69. Unless an estimate overflows: the same plan over more bytes costs no less, *)
Theorem C69_more_bytes_cost_no_less_partial f32_log2 p q k k' : larger f32_log2 p q ->
  calculate_cost f32_log2 true p = Ok k -> calculate_cost f32_log2 true q = Ok k' -> costs_le k k'.
Proof.
  unfold calculate_cost. intros HL H H'.
  destruct (f f32_log2 true p) as [[k0 s]| |] eqn:E; try discriminate. destruct (f f32_log2 true q) as [[k0' s']| |] eqn:E'; try discriminate.
  injection H as <-. injection H' as <-. exact (proj1 (larger_le f32_log2 p q HL _ _ _ _ E E')).
Qed.
Print Assumptions C69_more_bytes_cost_no_less_partial.

(** and gets no fewer tasks; more bytes for each partition, or more partitions, give no more tasks. *)
Theorem C69_no_fewer_tasks bytes bytes' cpu cpu' partitions partitions' most n n' :
  (cpu <= cpu')%N -> (bytes' <= bytes)%N -> (partitions' <= partitions)%nat ->
  compute_based_task_count bytes cpu partitions most = Ok n ->
  compute_based_task_count bytes' cpu' partitions' most = Ok n' -> (n <= n')%nat.
Proof.
  intros Hc Hb Hp H H'. unfold compute_based_task_count, usize_div_ceil in *.
  destruct (N.max bytes 1 =? 0) eqn:B1; [discriminate|]. destruct (N.max bytes' 1 =? 0) eqn:B2; [discriminate|]. cbn [bind] in *.
  destruct (N.of_nat partitions =? 0) eqn:P1; [discriminate|]. destruct (N.of_nat partitions' =? 0) eqn:P2; [discriminate|]. cbn [bind] in *.
  apply N.eqb_neq in B1, B2, P1, P2. injection H as <-. injection H' as <-.
  assert (D : forall a a' b b' : N, a <= a' -> b' <= b -> b' <> 0 -> (a + b - 1) / b <= (a' + b' - 1) / b').
  { intros a a' b b' Ha Hb' Hz. apply N.div_le_lower_bound; [assumption|].
    assert (Hb0 : b <> 0) by lia. pose proof (N.mul_div_le (a + b - 1) b Hb0) as M.
    destruct (N.eq_dec ((a + b - 1) / b) 0) as [->|Hq]; [lia|].
    set (q := (a + b - 1) / b) in *. nia. }
  assert (L1 := D _ _ _ _ Hc (N.max_le_compat_r bytes' bytes 1 Hb) B2).
  assert (Hp' : N.of_nat partitions' <= N.of_nat partitions) by lia.
  assert (L2 := D _ _ _ _ L1 Hp' P2). lia.
Qed.
Print Assumptions C69_no_fewer_tasks.

(** C71. The statistics used for an operator: DataFusion's where it has any; *)
Theorem C71_known_kept checks lib fields ss l s : plan_statistics checks lib fields ss = Ok s -> lib ss = Ok l ->
  (num_rows l <> Absent -> num_rows s = num_rows l) /\
  (total_byte_size l <> Absent -> total_byte_size s = total_byte_size l) /\
  List.length (columns s) = List.length (columns l) /\
  (forall i c d, nth_error (columns l) i = Some c -> nth_error (columns s) i = Some d ->
     null_count d = null_count c /\ (byte_size c <> Absent -> byte_size d = byte_size c) /\
     (distinct_count c <> Absent -> distinct_count d = distinct_count c)).
Proof. apply known_kept. Qed.
Print Assumptions C71_known_kept.

(** otherwise the rows of all inputs that have an estimate, *)
Theorem C71_rows_of_inputs checks lib fields ss l s : plan_statistics checks lib fields ss = Ok s -> lib ss = Ok l -> num_rows l = Absent ->
  let rows := flat_map (fun i => match num_rows i with Exact n | Inexact n => [n] | Absent => [] end) ss in
  (rows = [] -> num_rows s = Absent) /\ (rows <> [] -> Nsum rows <= usize_max -> num_rows s = Inexact (Nsum rows)).
Proof. apply rows_of_inputs. Qed.
Print Assumptions C71_rows_of_inputs.

(** and the rows times the size of the column's type; *)
Theorem C71_bytes_of_rows checks lib fields ss l s rows i c d : plan_statistics checks lib fields ss = Ok s -> lib ss = Ok l ->
  says (num_rows s) rows -> nth_error (columns l) i = Some c -> nth_error (columns s) i = Some d -> byte_size c = Absent ->
  exists t, nth_error fields i = Some t /\ (fits t -> byte_size d = Inexact (N.min (value_bytes t * rows) usize_max)).
Proof.
  intros H Hl Hr Hc Hd Hb. destruct (bytes_of_rows _ _ _ _ _ _ _ _ _ _ H Hl Hr Hc Hd Hb) as (t & b & Ht & Eb & ->). exists t. split; [exact Ht|].
  intros F. rewrite (fits_bytes checks t F) in Eb. now injection Eb as <-.
Qed.
Print Assumptions C71_bytes_of_rows.

(** an operator's bytes are those of its columns. *)
Theorem C71_total_of_columns checks lib fields ss l s : plan_statistics checks lib fields ss = Ok s -> lib ss = Ok l -> total_byte_size l = Absent ->
  total_byte_size s
  = Inexact (N.min (Nsum (map (fun c => match byte_size c with Exact n | Inexact n => n | Absent => 0 end) (columns s))) usize_max).
Proof. apply total_of_columns. Qed.
Print Assumptions C71_total_of_columns.

Module CostEx.
(** A table of [n] bytes in one column, and one of unknown size. *)
Definition table (n : N) : plan :=
  Plan DataSource [Fixed 8] (fun _ => Ok (mkStats (Inexact 10) (Inexact n) [mkColStats Absent Absent (Inexact n)])) [].
Definition unknown_table (fields : list dtype) : plan :=
  Plan DataSource fields (fun _ => Ok (mkStats Absent Absent (map (fun _ => mkColStats Absent Absent Absent) fields))) [].
Definition cross (a b : plan) : plan :=
  Plan CrossJoin [Fixed 8; Fixed 8] (fun _ => Ok (mkStats (Inexact 100) (Inexact 100) [mkColStats Absent Absent (Inexact 50); mkColStats Absent Absent (Inexact 50)])) [a; b].
Definition log2 (x : f32) : f32 := x.

(** C68 does not hold of two tables of 4 GiB each or more: their cross join costs one byte less than scanning them, or the
    estimate panics. *)
Theorem C68_cross_join_refuted a b : 2 ^ 32 <= a -> 2 ^ 32 <= b -> a + b <= usize_max ->
  exists k ka kb, calculate_cost log2 false (cross (table a) (table b)) = Ok k /\
    calculate_cost log2 false (table a) = Ok ka /\ calculate_cost log2 false (table b) = Ok kb /\
    says (c_cpu k) (a + b - 1) /\ says (c_cpu ka) a /\ says (c_cpu kb) b /\
    exists msg, calculate_cost log2 true (cross (table a) (table b)) = Panic msg.
Proof.
  intros Ha Hb Hab. unfold calculate_cost.
  assert (A : forall checks x y, x + y <= usize_max -> usize_add checks x y = Ok (x + y)).
  { intros checks x y H. unfold usize_add. apply N.leb_le in H. now rewrite H. }
  assert (FT : forall checks n, f log2 checks (table n) = Ok (mkCosts (Inexact n) (Inexact 0) (Inexact 0),
     mkStats (Inexact 10) (Inexact n) [mkColStats Absent (Inexact 5) (Inexact n)])) by reflexivity.
  assert (S : saturating_mul a b = usize_max).
  { unfold saturating_mul. apply N.min_r. assert (2 ^ 32 * 2 ^ 32 <= a * b) by (now apply N.mul_le_mono). unfold usize_max. lia. }
  assert (FC : forall checks, f log2 checks (cross (table a) (table b))
     = let* cpu := usize_add checks (a + b) usize_max in
       let* m := usize_add checks 0 a in
       Ok (mkCosts (Inexact cpu) (Inexact m) (Inexact 0),
           mkStats (Inexact 100) (Inexact 100) [mkColStats Absent (Inexact 50) (Inexact 50); mkColStats Absent (Inexact 50) (Inexact 50)])).
  { intros checks. unfold cross. rewrite f_eq. cbn [inputs]. rewrite !FT. cbn [bind].
    unfold add_costs at 1. unfold sum_precision at 1 2 3. cbn [get_value c_cpu c_memory c_network bind].
    unfold add_costs at 1. unfold sum_precision at 1 2 3. cbn [get_value c_cpu c_memory c_network bind].
    rewrite (A checks a b Hab). cbn [bind]. rewrite (A checks 0 0) by (unfold usize_max; lia). cbn [bind app].
    set (st := plan_statistics _ _ _ _).
    assert (Est : st = Ok (mkStats (Inexact 100) (Inexact 100) [mkColStats Absent (Inexact 50) (Inexact 50); mkColStats Absent (Inexact 50) (Inexact 50)])) by reflexivity.
    rewrite Est. cbn [bind]. clear st Est.
    unfold own_cost. cbn [complexity_cpu complexity_memory complexity_network multiply cost linear_cost hd_error last_of List.length Nat.sub nth_error total_size get_value total_byte_size bind].
    rewrite S. unfold add_costs, sum_precision. cbn [get_value c_cpu c_memory c_network bind inexact_or_absent].
    replace (f32_as_usize (f32_of_N 0)) with 0 by reflexivity. cbn [bind].
    change (0 + 0) with 0. cbn [bind inexact_or_absent get_value].
    destruct (usize_add checks (a + b) usize_max); cbn [bind]; [|reflexivity..].
    destruct (usize_add checks 0 a); cbn [bind]; [|reflexivity..]. now rewrite (A checks 0 0) by (unfold usize_max; lia). }
  rewrite !FC, !FT. rewrite (A false 0 a), (A true 0 a) by lia. cbn [bind fst].
  assert (O : usize_add false (a + b) usize_max = Ok (a + b - 1)).
  { unfold usize_add. destruct (N.leb_spec (a + b + usize_max) usize_max); [exfalso; lia|]. f_equal.
    replace (a + b + usize_max) with (a + b - 1 + 1 * 2 ^ 64) by (unfold usize_max; lia).
    rewrite N.mod_add by lia. apply N.mod_small. unfold usize_max in Hab. lia. }
  rewrite O. cbn [bind fst]. do 3 eexists. split; [reflexivity|]. split; [reflexivity|]. split; [reflexivity|].
  split; [right; reflexivity|]. split; [right; reflexivity|]. split; [right; reflexivity|].
  exists "attempt to add with overflow"%string. unfold usize_add.
  destruct (N.leb_spec (a + b + usize_max) usize_max); [exfalso; lia|]. reflexivity.
Qed.

(** C71 does not extend to unknown sources: a table nothing is known about costs nothing, and asks for one task. *)
Theorem C71_unknown_is_free_refuted checks fields bytes partitions most :
  (0 < partitions)%nat -> (0 < most)%nat ->
  exists k, calculate_cost log2 checks (unknown_table fields) = Ok k /\ says (c_cpu k) 0 /\
    compute_based_task_count bytes 0 partitions most = Ok 1%nat.
Proof.
  intros Hp Hm.
  assert (F : f log2 checks (unknown_table fields) = Ok (mkCosts (Inexact 0) (Inexact 0) (Inexact 0),
    mkStats Absent (Inexact 0) (map (fun _ => mkColStats Absent Absent Absent) fields))).
  { unfold unknown_table. rewrite f_eq. cbn [inputs bind]. unfold plan_statistics. cbn [bind fill_rows num_rows get_value flat_map total_byte_size columns].
    assert (Z : sum_columns (map (fun _ : dtype => mkColStats Absent Absent Absent) fields) = 0).
    { unfold sum_columns. induction fields as [|t fields IH]; [reflexivity|]. exact IH. }
    rewrite Z. reflexivity. }
  unfold calculate_cost. rewrite F. cbn [bind fst]. eexists. split; [reflexivity|]. split; [right; reflexivity|].
  unfold compute_based_task_count, usize_div_ceil.
  destruct (N.eqb_spec (N.max bytes 1) 0); [lia|]. cbn [bind]. destruct (N.eqb_spec (N.of_nat partitions) 0); [lia|]. cbn [bind]. f_equal.
  replace ((0 + N.max bytes 1 - 1) / N.max bytes 1) with 0 by (symmetry; apply N.div_small; lia).
  replace ((0 + N.of_nat partitions - 1) / N.of_nat partitions) with 0 by (symmetry; apply N.div_small; lia). lia.
Qed.

(** Non-vacuity. A filter [#0 < #1] over two tables' cross join, small enough for nothing to saturate. *)
Definition small_query (a b : N) : plan :=
  Plan (Filter (EOp [ECol 0; ECol 1])) [Fixed 8; Fixed 8] (fun _ => Ok (mkStats (Inexact 20) Absent [mkColStats Absent Absent Absent; mkColStats Absent Absent Absent]))
    [cross (table a) (table b)].
Definition costs_of (r : Res costs) : option (option N * option N * option N) :=
  match r with Ok k => Some (get_value (c_cpu k), get_value (c_memory k), get_value (c_network k)) | _ => None end.

Example ex_checked : costs_of (calculate_cost log2 true (small_query 100 200)) = Some (Some 20760, Some 100, Some 0).
Proof. vm_compute. reflexivity. Qed.
Example ex_subplan : subplan (table 200) (small_query 100 200) /\ costs_of (calculate_cost log2 true (table 200)) = Some (Some 200, Some 0, Some 0).
Proof. split; [|reflexivity]. eapply sub_child; [left; reflexivity|]. eapply sub_child; [right; left; reflexivity|]. apply sub_refl. Qed.

Example ex_larger : larger log2 (small_query 100 200) (small_query 100 300) /\
  costs_of (calculate_cost log2 true (small_query 100 300)) = Some (Some 30860, Some 100, Some 0).
Proof.
  assert (same : forall s, sizes_le s s).
  { intros s. split; [now destruct (total_byte_size s); cbn; try lia|]. induction (columns s) as [|c l IH]; constructor; [|exact IH].
    now destruct (byte_size c); cbn; try lia. }
  assert (T : forall n m, n <= m -> larger log2 (table n) (table m)).
  { intros n m H. constructor; [constructor|]. intros k s k' s' E E'. change (f log2 true (table n) = Ok (k, s)) in E. change (f log2 true (table m) = Ok (k', s')) in E'.
    cbn in E, E'. injection E as <- <-. injection E' as <- <-. split; [exact H|]. constructor; [exact H|constructor]. }
  split; [|vm_compute; reflexivity].
  constructor.
  - constructor; [|constructor]. constructor; [constructor; [apply T; lia|constructor; [apply T; lia|constructor]]|].
    intros k s k' s' E E'. vm_compute in E, E'. injection E as <- <-. injection E' as <- <-. apply same.
  - intros k s k' s' E E'. vm_compute in E, E'. injection E as <- <-. injection E' as <- <-. apply same.
Qed.

Example ex_tasks : compute_based_task_count 1000 20760 4 10 = Ok 6%nat /\ compute_based_task_count 1000 30860 4 10 = Ok 8%nat.
Proof. split; reflexivity. Qed.

(** Sizes of a hash join on column 0 of both sides with a residual filter, and of a sort with a limit. *)
Definition left_in : stats := mkStats (Inexact 10) (Inexact 100) [mkColStats Absent Absent (Inexact 40); mkColStats Absent Absent (Inexact 60)].
Definition right_in : stats := mkStats (Inexact 10) (Inexact 500) [mkColStats Absent Absent (Inexact 300); mkColStats Absent Absent (Inexact 200)].
Definition joined : stats := mkStats (Inexact 10) (Inexact 700) [].
Definition sz (l : linear) : N :=
  match l with
  | ColumnFromLeft 0 | Column 0 => 40 | AllColumnsFromLeft | AllColumns => 100 | ColumnFromRight 0 => 300 | AllColumnsFromRight => 500
  | AllOutputColumns => 700 | _ => 0
  end.
Definition join : operator := HashJoin [(ECol 0, ECol 0)] None.
Example ex_join : usize_stats joined /\ Forall usize_stats [left_in; right_in] /\ is_sort join = false /\ fixed_work join <= 2 ^ 24 /\
  (forall l, In l (reads join) -> size_in joined [left_in; right_in] l (sz l)) /\
  (forall l, In l (memory_reads join) -> size_in joined [left_in; right_in] l (sz l)) /\
  cost true joined [left_in; right_in] (complexity_cpu log2 join) = Ok (Some 1040).
Proof.
  split; [split; [intros x E; injection E as <-; unfold usize_max; lia|constructor]|].
  split.
  { repeat constructor; cbn; intros x E; injection E as <-; unfold usize_max; lia. }
  split; [reflexivity|]. split; [vm_compute; discriminate|].
  split; [|split; [|vm_compute; reflexivity]].
  - intros l Hl. apply size_in_cost. cbn in Hl. intuition (subst; reflexivity).
  - intros l Hl. apply size_in_cost. cbn in Hl. intuition (subst; reflexivity).
Qed.
Definition sort : operator := Sort [ECol 0] true.
Example ex_sort : fixed_work sort <= 2 ^ 24 /\ (forall l, In l (reads sort) -> size_in joined [left_in] l (sz l)) /\
  cost true joined [left_in] (complexity_cpu log2 sort) = Ok (Some 1260).
Proof.
  split; [vm_compute; discriminate|]. split; [|vm_compute; reflexivity].
  intros l Hl. apply size_in_cost. cbn in Hl. intuition (subst; reflexivity).
Qed.
Example ex_unknown : In (Column 5) (reads (Filter (EOp [ECol 5; ELit]))) /\ forall n, ~ size_in joined [left_in] (Column 5) n.
Proof. split; [cbn; auto|]. intros n H. apply size_in_cost in H. discriminate. Qed.
Example ex_network : (forall l, In l (network_reads Boundary) -> size_in joined [left_in] l (sz l)) /\
  cost true joined [left_in] (complexity_network Boundary (Some (Bcast 3))) = Ok (Some 2100).
Proof. split; [intros l [<-|[]]; apply size_in_cost; reflexivity|vm_compute; reflexivity]. Qed.

(** Statistics: rows from the inputs, columns from the rows. *)
Example ex_statistics :
  plan_statistics true (fun _ => Ok (mkStats Absent Absent [mkColStats Absent Absent Absent; mkColStats Absent (Exact 3) (Exact 77)]))
    [Lists 4 (Fixed 8); Varlen 4] [left_in; right_in; mkStats Absent Absent []]
  = Ok (mkStats (Inexact 20) (Inexact 357) [mkColStats Absent (Inexact 10) (Inexact 280); mkColStats Absent (Exact 3) (Exact 77)]) /\
  fits (Lists 4 (Fixed 8)) /\ value_bytes (Lists 4 (Fixed 8)) = 14.
Proof. split; [vm_compute; reflexivity|]. split; [|reflexivity]. constructor; [constructor|cbn; unfold usize_max; lia]. Qed.
End CostEx.
Print Assumptions CostEx.C68_cross_join_refuted.
Print Assumptions CostEx.C71_unknown_is_free_refuted.
