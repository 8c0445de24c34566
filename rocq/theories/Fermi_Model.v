(** Model of src/Fermi.h over the real numbers; std::exp and log are the exact functions. *)
From Coq Require Import Reals.
Local Open Scope R_scope.

(** fermi: src/Fermi.h:84-94 *)
Definition fermi (x : R) : R :=
  if Rlt_dec 50 x then 0
  else if Rlt_dec x (-50) then 1
  else if Rlt_dec x 0 then 1 / (1 + exp x)
  else exp (- x) / (1 + exp (- x)).

(** fermiPrime: src/Fermi.h:96-103 *)
Definition fermiPrime (x : R) : R := - fermi x * fermi (- x).

(** logfermi: src/Fermi.h:105-115 *)
Definition logfermi (x : R) : R :=
  if Rlt_dec 20 x then - x
  else if Rlt_dec x (-20) then 0
  else - ln (1 + exp x).
