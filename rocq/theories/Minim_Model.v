(** Model of the drivers of the GSL minimizers: src/Minimizer.h. *)
From Coq Require Import ZArith.
From Verif Require Import Prelude.

(** Conversion of a SizeType (of 64 bits) to the int that is returned *)
Definition to_int (z : Z) : Z := let m := (z mod 4294967296)%Z in if (m <? 2147483648)%Z then m else (m - 4294967296)%Z.
(** GSL_SUCCESS and GSL_CONTINUE of gsl_errno.h *)
Definition GSL_SUCCESS : Z := 0%Z.
Definition GSL_CONTINUE : Z := (-2)%Z.

Section Minimizer.
  Context {V G : Type}.
  (** The minimizer of the GSL: its state, one iteration with its error code (0 if there is none), whether the test for the
      end succeeds (gsl_multimin_test_size of the size, gsl_multimin_test_gradient of the gradient), and its point *)
  Variable iterate : G -> Z * G.
  Variable small : G -> bool.
  Variable point : G -> list V.
  (** The status of the Minimizer and the number of vectors of the GSL that are allocated *)
  Record mini := mkmini { mi_status : Z; mi_vectors : nat }.
  (** How a call ends: with a number or an exception, and what is in the argument and in the Minimizer then *)
  Inductive outcome := Returns (n : Z) (v : list V) (st : mini) | Throws (v : list V) (st : mini).

  (** Copying the argument to a vector of size n that has [junk]: src/Minimizer.h:82-84, 142-144. gsl_vector_set checks the
      range. *)
  Definition starting (n : nat) (junk minVector : list V) : res (list V) :=
    forM (length minVector) 0 (fun i x => do e <- vget minVector i ;; vset x i e) (firstn n junk).
  (** found: src/Minimizer.h:214-218 *)
  Definition found (minVector x : list V) : res (list V) :=
    forM (length minVector) 0 (fun i v => do e <- vget x i ;; vset v i e) minVector.

  (** The loop of simplex: src/Minimizer.h:100-131, without what is printed. The rest of the iterations is counted. *)
  Fixpoint simplex_loop (rest iter : nat) (g : G) (st : mini) (minVector : list V) : res outcome :=
    match rest with
    | 0 =>
      do v <- found minVector (point g) ;;
      Ok (Returns (to_int (Z.of_nat iter)) v (mkmini (mi_status st) (mi_vectors st - 2)))
    | S rest =>
      let '(status, g) := iterate g in
      if negb (status =? 0)%Z then Ok (Throws minVector (mkmini status (mi_vectors st))) else
      let status := if small g then GSL_SUCCESS else GSL_CONTINUE in
      if (status =? GSL_SUCCESS)%Z then
        do v <- found minVector (point g) ;;
        Ok (Returns (to_int (Z.of_nat iter)) v (mkmini status (mi_vectors st - 2)))
      else simplex_loop rest (S iter) g (mkmini status (mi_vectors st)) minVector
    end.
  (** simplex: src/Minimizer.h:77-136. [set x xs] is the state after gsl_multimin_fminimizer_set. *)
  Definition simplex (set : list V -> list V -> G) (delta : V) (n maxIter : nat) (junk junk2 : list V) (st : mini) (minVector : list V) : res outcome :=
    do x <- starting n junk minVector ;;
    do xs <- starting n junk2 (map (fun _ => delta) minVector) ;;
    simplex_loop maxIter 0 (set x xs) (mkmini (mi_status st) (mi_vectors st + 2)) minVector.

  (** The loop of conjugateGradient: src/Minimizer.h:157-193 *)
  Fixpoint conjugateGradient_loop (rest iter : nat) (g : G) (st : mini) (minVector : list V) : res outcome :=
    match rest with
    | 0 =>
      do v <- found minVector (point g) ;;
      Ok (Returns (to_int (Z.of_nat iter)) v (mkmini (mi_status st) (mi_vectors st - 1)))
    | S rest =>
      let '(status, g) := iterate g in
      if negb (status =? 0)%Z then
        Ok (Returns (to_int (18446744073709551616 - Z.of_nat iter)) minVector (mkmini status (mi_vectors st)))
      else
      let status := if small g then GSL_SUCCESS else GSL_CONTINUE in
      if (status =? GSL_SUCCESS)%Z then
        do v <- found minVector (point g) ;;
        Ok (Returns (to_int (Z.of_nat iter)) v (mkmini status (mi_vectors st - 1)))
      else conjugateGradient_loop rest (S iter) g (mkmini status (mi_vectors st)) minVector
    end.
  (** conjugateGradient: src/Minimizer.h:138-197; the two tolerances that are given to the GSL are part of [set]. *)
  Definition conjugateGradient (set : list V -> G) (n maxIter : nat) (junk : list V) (st : mini) (minVector : list V) : res outcome :=
    do x <- starting n junk minVector ;;
    conjugateGradient_loop maxIter 0 (set x) (mkmini (mi_status st) (mi_vectors st + 1)) minVector.
End Minimizer.
Arguments outcome : clear implicits.
