(** The length of a vector of complex numbers. *)
From Coq Require Import Reals.
From Verif Require Import Prelude Ring Cplx Rsum Vec_Spec.
Local Open Scope R_scope.

(** |z|^2 *)
Definition abs2 (z : Cring) : R := fst z * fst z + snd z * snd z.
(** The sum of the squares of the absolute values of all elements *)
Definition squares (v : list Cring) : R := rsum (length v) (fun k => abs2 (vel v k)).
