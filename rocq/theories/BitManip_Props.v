(** C03: bit counting. *)
From Verif Require Import Prelude BitManip_Model BitManip_Spec BitManip_Proofs.
Local Open Scope N_scope.

(** For every 64-bit word the Kernighan loop terminates within 64 iterations
    and returns the number of one bits. *)
Theorem C03_countKernighan : forall w, w < 2 ^ 64 -> countKernighan w = Ok (ones w).
Proof. exact countKernighan_ones. Qed.
Print Assumptions C03_countKernighan.

(** For every 64-bit word the parallel-sum version returns the same number. *)
Theorem C03_count : forall w, w < 2 ^ 64 -> count w = ones w.
Proof. exact count_ones. Qed.
Print Assumptions C03_count.

Example C03_nonvacuous :
  0xdeadbeefcafebabe < 2 ^ 64 /\ ones 0xdeadbeefcafebabe = 46 /\ ones (2 ^ 64 - 1) = 64 /\
  countKernighan 0xdeadbeefcafebabe = Ok 46 /\ count 0xdeadbeefcafebabe = 46.
Proof. vm_compute. repeat split. Qed.
