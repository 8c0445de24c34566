(** Model of the reductions over processes with the operations of MPI, of unsigned numbers, complex numbers and matrices: src/MpiYes.h,
    src/MpiYes.cpp and src/Matrix.h. The argument is what each process has, in the order of the ranks. MPI wants the same count from
    all; anything else is undefined. MPI combines the numbers in the order of the ranks here; it may take another order, which
    matters for none of these operations. *)
From Coq Require Import ZArith.
From Verif Require Import Prelude Ring Dense_Model.
Import List.
Local Open Scope Z_scope.

Inductive mpi_op := SUM | PROD | MAX | MIN.

Section Reduce.
  Variable D : Type.
  Variable dop : mpi_op -> D -> D -> D.   (* what the operation does to the data type *)

  (** MPI_Allreduce of [count] numbers; each process gives its numbers. *)
  Fixpoint combine_all (op : mpi_op) (w : list D) (vs : list (list D)) : list D :=
    match vs with
    | [] => w
    | v :: vs => combine_all op (map (fun '(x, y) => dop op x y) (List.combine w v)) vs
    end.
  Definition mpi_allreduce (op : mpi_op) (vs : list (list D)) : res (list D) :=
    match vs with
    | [] => UB
    | v :: vs => guard (forallb (fun w => Nat.eqb (length w) (length v)) vs) ;; Ok (combine_all op v vs)
    end.
  (** allReduce of vectors of numbers: src/MpiYes.h:440-451 *)
  Definition allReduce_op (op : mpi_op) (vs : list (list D)) : res (list (list D)) :=
    do w <- mpi_allreduce op vs ;; Ok (map (fun _ => w) vs).
End Reduce.

(** The data type of an unsigned long is MPI_LONG: src/MpiYes.cpp:86-87. A number is a value from 0 to 2^64 - 1; MPI takes its
    bits as those of a long. A sum or product that a long cannot hold loses the bits that do not fit, as it does with the usual
    implementations of MPI. *)
Definition as_long (u : Z) : Z := if u <? 2 ^ 63 then u else u - 2 ^ 64.
Definition as_ulong (z : Z) : Z := z mod 2 ^ 64.
Definition long_op (op : mpi_op) (u v : Z) : Z :=
  as_ulong match op with
           | SUM => as_long u + as_long v
           | PROD => as_long u * as_long v
           | MAX => Z.max (as_long u) (as_long v)
           | MIN => Z.min (as_long u) (as_long v)
           end.
Definition allReduce_ulong : mpi_op -> list (list Z) -> res (list (list Z)) := allReduce_op Z long_op.

Section Complex.
  Variable R : cring.
  Variables rmax rmin : R -> R -> R.
  (** MPI_DOUBLE *)
  Definition double_op (op : mpi_op) (x y : R) : R :=
    match op with SUM => cadd x y | PROD => cmul x y | MAX => rmax x y | MIN => rmin x y end.
  (** allReduce of vectors of complex numbers: src/MpiYes.h:453-464; a complex number is two real numbers, one after the other. *)
  Definition flat (v : list (R * R)) : list R := flat_map (fun z => [fst z; snd z]) v.
  Fixpoint unflat (v : list R) : list (R * R) :=
    match v with x :: y :: v => (x, y) :: unflat v | _ => [] end.
  Definition allReduce_cplx (op : mpi_op) (vs : list (list (R * R))) : res (list (list (R * R))) :=
    do ws <- allReduce_op R double_op op (map flat vs) ;; Ok (map unflat ws).

  (** allReduce of matrices of numbers: src/Matrix.h:1109-1121. recvbuf is a copy of v, so each process keeps its shape; the
      place (0, 0) must be there. *)
  Definition allReduce_mat (op : mpi_op) (ms : list (mat R)) : res (list (mat R)) :=
    guard (forallb (fun m => negb (Nat.eqb (m_nrow m * m_ncol m) 0)) ms) ;;
    do ws <- allReduce_op R double_op op (map (@m_data R) ms) ;;
    Ok (map (fun '(m, w) => mkmat (m_nrow m) (m_ncol m) w) (List.combine ms ws)).
End Complex.
