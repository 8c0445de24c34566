(** What "number of one bits of a 64-bit word" means. *)
From Verif Require Import Prelude.

Definition ones (w : N) : N :=
  N.of_nat (length (filter (fun i => N.testbit w (N.of_nat i)) (seq 0 64))).
