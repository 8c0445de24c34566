(** Model of the storage of src/TridiagonalMatrix.h. Its diagonalisation is not modelled here:
    ground is in Ground_Model.v and diag2 calls LAPACK. *)
From Verif Require Import Prelude Ring Dense_Model.

(** a_, b_: src/TridiagonalMatrix.h:93-97 and the end of the class *)
Record tri (R : cring) : Type := mktri { t_a : list R; t_b : list R }.
Arguments mktri {R} _ _.
Arguments t_a {R} _.
Arguments t_b {R} _.

Section Tri.
  Variable R : cring.

  (** TridiagonalMatrix(): src/TridiagonalMatrix.h:97 *)
  Definition tri_new : tri R := mktri [] [].

  (** resize(n): src/TridiagonalMatrix.h:120-125 *)
  Definition tri_resize (t : tri R) (n : nat) : res (tri R) :=
    guard (0 <? n) ;; Ok (mktri (vresize (t_a t) n c0) (vresize (t_b t) n c0)).

  (** resize(n, value): src/TridiagonalMatrix.h:113-118 *)
  Definition tri_resize_val (t : tri R) (n : nat) (value : R) : res (tri R) :=
    do t <- tri_resize t n ;;
    forR 0 n (fun i t => do b <- vset (t_b t) i value ;; do a <- vset (t_a t) i value ;; Ok (mktri a b)) t.

  (** push: src/TridiagonalMatrix.h:174-178 *)
  Definition tri_push (t : tri R) (a b : R) : tri R := mktri (t_a t ++ [a]) (t_b t ++ [b]).

  (** size: src/TridiagonalMatrix.h:180 *)
  Definition tri_size (t : tri R) : nat := length (t_a t).

  (** buildDenseMatrix: src/TridiagonalMatrix.h:151-164; with n = 0 the loop bound n - 1 wraps around and the
      first iteration already reads outside a_, which is [UB] *)
  Definition buildDenseMatrix (t : tri R) (m : mat R) (n : nat) : res (mat R) :=
    let n := if n =? 0 then length (t_a t) else n in
    let m := mat_resize_val R m n n c0 in
    guard (0 <? n) ;;
    do m <- forR 0 (n - 1) (fun i m =>
      do a <- vget (t_a t) i ;; do m <- mset R m i i a ;;
      do b <- vget (t_b t) (i + 1) ;; do m <- mset R m i (i + 1) b ;;
      do b <- vget (t_b t) (i + 1) ;; mset R m (i + 1) i (cconj b)) m ;;
    do a <- vget (t_a t) (n - 1) ;; mset R m (n - 1) (n - 1) a.
End Tri.
