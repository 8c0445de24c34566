(** What threads should be created with *)
From Coq Require Import NArith.
From Verif Require Import Prelude Thr_Model.

(** The processors of a set, smallest first *)
Definition processors (s : cpuset) : list nat := filter (fun c => CPU_ISSET c s) (seq 0 MAX_CPUS).
(** The set with one processor *)
Definition only (c : nat) (s : cpuset) : Prop := length s = MAX_CPUS /\ forall i, CPU_ISSET i s = true <-> i = c.
(** How many of the threads before j have been given a processor *)
Definition given (succeeds : nat -> bool) (j : nat) : nat := length (filter succeeds (seq 0 j)).
