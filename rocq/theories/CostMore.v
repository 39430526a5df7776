(** C69: what the missing case, an estimate that overflows, does. *)
From Coq Require Import NArith.
From Verif Require Import Base CiuModel EventsModel GatherFloat GatherModel CostModel CostSpec CostProofs CostProps.
Open Scope N_scope.

(** The cross join of two tables of 4 GiB costs less than that of two tables of 2 GiB (the estimate of the former wraps), and
    gets fewer tasks; with overflow checks its estimate panics. *)
Theorem C69_more_bytes_cost_no_less_refuted : exists a a' k k' n n',
  a <= a' /\ a' <= usize_max /\
  calculate_cost CostEx.log2 false (CostEx.cross (CostEx.table a) (CostEx.table a)) = Ok k /\
  calculate_cost CostEx.log2 false (CostEx.cross (CostEx.table a') (CostEx.table a')) = Ok k' /\
  says (c_cpu k) n /\ says (c_cpu k') n' /\ n' < n /\
  DynModel.compute_based_task_count (2 ^ 30) n 4 100 = Ok 100%nat /\
  DynModel.compute_based_task_count (2 ^ 30) n' 4 100 = Ok 2%nat /\
  exists msg, calculate_cost CostEx.log2 true (CostEx.cross (CostEx.table a') (CostEx.table a')) = Panic msg.
Proof.
  exists (2 ^ 31), (2 ^ 32). do 2 eexists. exists (2 ^ 62 + 2 ^ 32), (2 ^ 33 - 1).
  split; [vm_compute; discriminate|]. split; [vm_compute; discriminate|].
  split; [vm_compute; reflexivity|]. split; [vm_compute; reflexivity|].
  split; [right; vm_compute; reflexivity|]. split; [right; vm_compute; reflexivity|].
  split; [vm_compute; reflexivity|]. split; [vm_compute; reflexivity|]. split; [vm_compute; reflexivity|].
  eexists. vm_compute. reflexivity.
Qed.
Print Assumptions C69_more_bytes_cost_no_less_refuted.
