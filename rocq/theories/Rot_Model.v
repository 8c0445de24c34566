(** Model of [rotate] of src/Matrix.h, the change of basis of a matrix.

    Elements are those of a [cring] (exact arithmetic); the sizes fit into the [int] of BLAS. *)
From Coq Require Import Ascii.
From Verif Require Import Prelude Ring Dense_Model Gemm_Model.
Local Open Scope nat_scope.

Section Rot.
  Variable R : cring.

  (** rotate(m, transform): src/Matrix.h:890-902. Taking the address of the first element of a matrix calls operator(),
      which asserts that it exists ([mget]); the products are those of BLAS ([gemm]), with alpha 1 and beta 0; m.clear()
      (src/Matrix.h:220-224) makes the matrix empty. *)
  Definition rotate (m transform : mat R) : res (mat R) :=
    let C := mat_new R (m_ncol transform) (m_ncol m) in
    do _ <- mget R transform 0 0 ;; do _ <- mget R m 0 0 ;; do _ <- mget R C 0 0 ;;
    do us <- gemm R "C" "N" (m_ncol transform) (m_ncol m) (m_nrow m) c1 (m_data transform) 0 (m_nrow transform)
               (m_data m) 0 (m_nrow m) (length (m_data C)) 0 (m_nrow C) ;;
    let C := mkmat (m_nrow C) (m_ncol C) (fold_left (write R c1 c0) us (m_data C)) in
    do m <- mat_resize R (mat_empty R) (m_nrow C) (m_ncol transform) ;;
    do _ <- mget R C 0 0 ;; do _ <- mget R transform 0 0 ;; do _ <- mget R m 0 0 ;;
    do us <- gemm R "N" "N" (m_nrow C) (m_ncol transform) (m_nrow transform) c1 (m_data C) 0 (m_nrow C)
               (m_data transform) 0 (m_nrow transform) (length (m_data m)) 0 (m_nrow m) ;;
    Ok (mkmat (m_nrow m) (m_ncol m) (fold_left (write R c1 c0) us (m_data m))).
End Rot.
