(** The 48-bit generator. *)
From Coq Require Import ZArith Reals.
From Verif Require Import Prelude.
Import List.

(** The [k]-th number of the generator started at [x0], in units of 2^-48: the recurrence of POSIX *)
Fixpoint lcg (x0 : Z) (k : nat) : Z :=
  match k with O => x0 | S k => ((25214903917 * lcg x0 k + 11) mod 281474976710656)%Z end.
Definition norm2 (v : list R) : R := fold_right (fun y s => (y * y + s)%R) 0%R v.
