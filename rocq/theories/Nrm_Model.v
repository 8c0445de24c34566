(** Model of the norms and of the division of src/Vector.h, over real and complex numbers without rounding. *)
From Coq Require Import Reals.
From Verif Require Import Prelude Ring Cplx Vec_Model.
Local Open Scope R_scope.

(** norm of a real vector: src/Vector.h:492-496 *)
Definition norm_real (v : list Rring) : res R := do x <- vec_mul Rring v v ;; Ok (sqrt x).

(** norm of a complex vector: src/Vector.h:498-506 *)
Definition norm_cplx (v : list Cring) : res R :=
  do x <- vec_mul Cring v v ;;
  if Rlt_dec (/ 100000) (Rabs (snd x)) then Throw else Ok (sqrt (fst x)).

(** v /= t for a complex vector and a real number: src/Vector.h:412-418. A division by zero, which gives infinities or
    numbers that are none, is [UB]. *)
Definition divide_eq (v : list Cring) (t : R) : res (list Cring) :=
  each Cring (fun i u => do x <- vget u i ;; if Req_EM_T t 0 then UB else Ok (Cdiv x (RtoC t))) v.
