(** Model of filling and assigning sparse matrices: src/CrsMatrix.h. *)
From Verif Require Import Prelude Ring Crs_Model.

Section Fill.
  Variable R : cring.
  Local Open Scope cring_scope.
  Implicit Types (A B C m : crs R).

  (** What the assignment below asks of its argument: sorted(), rows(), cols(), nonZeros() and getRow(k), getColumn(k),
      getValue(k) for the k-th entry. *)
  Record sparse := mksparse { sp_sorted : bool; sp_rows : nat; sp_cols : nat; sp_entries : list (nat * nat * R) }.

  (** The while loop over the entries of row i: src/CrsMatrix.h:376-380 *)
  Fixpoint assign_row (fuel : nat) (m : sparse) (i : nat) (C : crs R) (counter : nat) : res (crs R * nat) :=
    match fuel with
    | 0%nat => OutOfFuel
    | S fuel =>
      if negb (counter <? length (sp_entries m))%nat then Ok (C, counter) else
      do (rc, v) <- vget (sp_entries m) counter ;;
      if negb (fst rc =? i)%nat then Ok (C, counter) else
      do C <- setCol R C counter (snd rc) ;;
      do C <- setValues R C counter v ;;
      assign_row fuel m i C (S counter)
    end.
  (** operator=(VerySparseMatrixType): src/CrsMatrix.h:361-385 *)
  Definition crs_assign (this : crs R) (m : sparse) : res (crs R) :=
    if negb (sp_sorted m) then Throw else
    let nonZeros := length (sp_entries m) in
    let C := crs_resize3 R (crs_clear R this) (sp_rows m) (sp_cols m) nonZeros in
    do (C, counter) <- forM (sp_rows m) 0 (fun i '(C, counter) =>
      do C <- setRow R C i counter ;;
      assign_row (S nonZeros) m i C counter) (C, 0%nat) ;;
    do C <- setRow R C (sp_rows m) counter ;;
    do _ <- checkValidity R C ;;
    Ok C.

  (** setCol_check: src/CrsMatrix.h:331-339 *)
  Definition setCol_check m (n v : nat) : res (crs R) :=
    if (n =? length (c_colind m) + 1)%nat then Ok (pushCol R m v) else setCol R m n v.
  (** setValues_check: src/CrsMatrix.h:343-351 *)
  Definition setValues_check m (n : nat) (v : R) : res (crs R) :=
    if (n =? length (c_values m) + 1)%nat then Ok (pushValue R m v) else setValues R m n v.

  (** CrsMatrix(y * z), and thereby [x = y * z], where x may be y or z: src/CrsMatrix.h:232-241. The new matrix has no
      rows, columns or entries before. *)
  Definition crs_of_product (y z : crs R) : res (crs R) := multiply R (crs_empty R) y z.
  (** CrsMatrix(t * y) and x = t * y: src/CrsMatrix.h:243-250, 538-547 *)
  Definition crs_of_scaled (t : R) (y : crs R) : res (crs R) := crs_scale R y t.

  (** swap: src/CrsMatrix.h:443-454 *)
  Definition crs_swap (this other : crs R) : crs R * crs R :=
    let '(rowptr, rowptr') := (c_rowptr other, c_rowptr this) in
    let '(colind, colind') := (c_colind other, c_colind this) in
    let '(values, values') := (c_values other, c_values this) in
    let nrow := c_nrow this in
    let '(this_nrow, other_nrow) := (c_nrow other, nrow) in
    let ncol := c_ncol this in
    let '(this_ncol, other_ncol) := (c_ncol other, ncol) in
    (mkcrs rowptr colind values this_nrow this_ncol, mkcrs rowptr' colind' values' other_nrow other_ncol).

  (** multiply(C, A, B), src/CrsMatrix.h:1045-1091, when C may be the same object as A or B: [fa] and [fb] give A and B
      from the current C. *)
  Definition multiply_shared (fa fb : crs R -> crs R) C : res (crs R) :=
    let n := c_nrow (fa C) in
    let bcols := c_ncol (fb C) in
    do (C, mlast, ptr, index, temp) <- forM n 0 (fun i '(C, mlast, ptr, index, temp) =>
      do C <- setRow R C i mlast ;;
      do (itemp, ptr, index, temp) <- for_row R (fa C) i (fun j '(itemp, ptr, index, temp) =>
        do acol <- getCol R (fa C) j ;;
        do istart <- getRowPtr R (fb C) acol ;;
        do iend <- getRowPtr R (fb C) (acol + 1) ;;
        forR istart iend (fun k '(itemp, ptr, index, temp) =>
          do jbk <- getCol R (fb C) k ;;
          do av <- getValue R (fa C) j ;; do bv <- getValue R (fb C) k ;;
          let tmp := av * bv in
          do p <- vget ptr jbk ;;
          match p with
          | None =>
              do ptr <- vset ptr jbk (Some itemp) ;;
              do temp <- vset temp itemp tmp ;;
              do index <- vset index itemp jbk ;;
              Ok (S itemp, ptr, index, temp)
          | Some q =>
              do t <- vget temp q ;;
              do temp <- vset temp q (t + tmp) ;;
              Ok (itemp, ptr, index, temp)
          end) (itemp, ptr, index, temp)) (0%nat, ptr, index, temp) ;;
      do (C, ptr) <- forM itemp 0 (fun s '(C, ptr) =>
        do t <- vget temp s ;;
        do ix <- vget index s ;;
        do ptr <- vset ptr ix (@None nat) ;;
        Ok (pushCol R (pushValue R C t) ix, ptr)) (C, ptr) ;;
      Ok (C, (mlast + itemp)%nat, ptr, index, temp))
      (crs_resize2 R C n bcols, 0%nat, repeat (@None nat) bcols, repeat 0%nat bcols, repeat c0 bcols) ;;
    setRow R C n mlast.
End Fill.
Arguments mksparse {R}. Arguments sp_sorted {R}. Arguments sp_rows {R}. Arguments sp_cols {R}. Arguments sp_entries {R}.
