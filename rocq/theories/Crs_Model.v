(** Model of the compressed-row-storage matrix class of src/CrsMatrix.h and of
    its companion functions.

    Simplifications. The C++ [int]s of [rowptr_] and [colind_] and the
    [SizeType]s are natural numbers (so no overflow: the code is only meant for
    fewer than 2^31 stored entries). [checkValidity] and [assert] are compiled
    out with NDEBUG; [checkValidity] is modelled on its own below, and the
    assertions on sizes become [guard]s. [reserve] has no observable effect.
    Aliasing of the result with an argument is not modelled. Vectors of
    [bool]/[int] used as scratch are lists. *)
From Verif Require Import Prelude Ring Vec_Model Dense_Model Sort_Model.

Record crs (R : cring) : Type := mkcrs {
  c_rowptr : list nat;      (* rowptr_ : src/CrsMatrix.h:683 *)
  c_colind : list nat;      (* colind_ : src/CrsMatrix.h:684 *)
  c_values : list R;        (* values_ : src/CrsMatrix.h:685 *)
  c_nrow : nat;             (* nrow_ : src/CrsMatrix.h:686 *)
  c_ncol : nat              (* ncol_ : src/CrsMatrix.h:687 *)
}.
Arguments mkcrs {R} _ _ _ _ _.
Arguments c_rowptr {R} _.
Arguments c_colind {R} _.
Arguments c_values {R} _.
Arguments c_nrow {R} _.
Arguments c_ncol {R} _.

Section Crs.
  Variable R : cring.
  Local Open Scope cring_scope.
  Implicit Types (A B C m : crs R).

  (** CrsMatrix(): src/CrsMatrix.h:136-140 *)
  Definition crs_empty : crs R := mkcrs [] [] [] 0 0.

  (** resize(nrow, ncol): src/CrsMatrix.h:281-289 *)
  Definition crs_resize2 m (nrow ncol : nat) : crs R :=
    mkcrs (repeat 0%nat (nrow + 1)) [] [] nrow ncol.

  (** CrsMatrix(nrow, ncol): src/CrsMatrix.h:144-149 *)
  Definition crs_new (nrow ncol : nat) : crs R := crs_resize2 crs_empty nrow ncol.

  (** clear(): src/CrsMatrix.h:291-297 *)
  Definition crs_clear m : crs R := mkcrs [] [] [] 0 0.

  (** resize(nrow, ncol, nonzero): src/CrsMatrix.h:299-311; old contents stay *)
  Definition crs_resize3 m (nrow ncol nonzero : nat) : crs R :=
    mkcrs (vresize (c_rowptr m) (nrow + 1) 0%nat) (vresize (c_colind m) nonzero 0%nat)
          (vresize (c_values m) nonzero c0) nrow ncol.

  (** setRow: src/CrsMatrix.h:323-327 *)
  Definition setRow m (n v : nat) : res (crs R) :=
    do rp <- vset (c_rowptr m) n v ;;
    Ok (mkcrs rp (c_colind m) (c_values m) (c_nrow m) (c_ncol m)).

  (** setCol: src/CrsMatrix.h:329 *)
  Definition setCol m (n v : nat) : res (crs R) :=
    do ci <- vset (c_colind m) n v ;;
    Ok (mkcrs (c_rowptr m) ci (c_values m) (c_nrow m) (c_ncol m)).

  (** setValues: src/CrsMatrix.h:341 *)
  Definition setValues m (n : nat) (v : R) : res (crs R) :=
    do vs <- vset (c_values m) n v ;;
    Ok (mkcrs (c_rowptr m) (c_colind m) vs (c_nrow m) (c_ncol m)).

  (** pushCol: src/CrsMatrix.h:457 *)
  Definition pushCol m (i : nat) : crs R :=
    mkcrs (c_rowptr m) (c_colind m ++ [i]) (c_values m) (c_nrow m) (c_ncol m).

  (** pushValue: src/CrsMatrix.h:459 *)
  Definition pushValue m (v : R) : crs R :=
    mkcrs (c_rowptr m) (c_colind m) (c_values m ++ [v]) (c_nrow m) (c_ncol m).

  (** getRowPtr, getCol, getValue: src/CrsMatrix.h:479-495 *)
  Definition getRowPtr m (i : nat) : res nat := vget (c_rowptr m) i.
  Definition getCol m (k : nat) : res nat := vget (c_colind m) k.
  Definition getValue m (k : nat) : res R := vget (c_values m) k.

  (** The loop [for (k = m.getRowPtr(i); k < m.getRowPtr(i + 1); k++)] found in
      almost every function of the file. *)
  Definition for_row {S : Type} m (i : nat) (f : nat -> S -> res S) (s : S) : res S :=
    do a <- getRowPtr m i ;; do b <- getRowPtr m (i + 1) ;; forR a b f s.

  (** nonZeros: src/CrsMatrix.h:396-409 *)
  Definition crs_nonZeros m : res nat :=
    if (1 <=? c_nrow m)%nat then
      guard (length (c_rowptr m) =? 1 + c_nrow m)%nat ;;
      do last <- vget (c_rowptr m) (c_nrow m) ;;
      guard (last =? length (c_colind m))%nat ;;
      guard (last =? length (c_values m))%nat ;;
      Ok (length (c_colind m))
    else Ok 0%nat.

  (** checkValidity, as compiled without NDEBUG (a failed assert is [UB]):
      src/CrsMatrix.h:511-533 *)
  Definition checkValidity m : res unit :=
    let n := c_nrow m in
    guard (n + 1 =? length (c_rowptr m))%nat ;;
    do last <- vget (c_rowptr m) n ;;
    guard (last =? length (c_colind m))%nat ;;
    guard (length (c_values m) =? length (c_colind m))%nat ;;
    guard ((0 <? c_nrow m)%nat && (0 <? c_ncol m)%nat) ;;
    do p <- forM n 0 (fun i p =>
      do a <- vget (c_rowptr m) i ;; do b <- vget (c_rowptr m) (i + 1) ;;
      guard (a <=? b)%nat ;;
      do p <- forR a b (fun k p =>
        do col <- vget (c_colind m) k ;;
        guard (col <? length p)%nat ;;
        do x <- vget p col ;;
        guard (x =? 0)%nat ;;
        vset p col 1%nat) p ;;
      forR a b (fun k p => do col <- vget (c_colind m) k ;; vset p col 0%nat) p)
      (repeat 0%nat (c_ncol m)) ;;
    Ok tt.

  (** operator*=(x): src/CrsMatrix.h:353 (and [m = t * a], 243-250, 540-548) *)
  Definition crs_scale m (x : R) : res (crs R) :=
    do vs <- times_eq R (c_values m) x ;;
    Ok (mkcrs (c_rowptr m) (c_colind m) vs (c_nrow m) (c_ncol m)).

  (** conjugate(): src/CrsMatrix.h:497-502 *)
  Definition crs_conjugate m : res (crs R) :=
    do vs <- each R (fun i u => do x <- vget u i ;; Ok (cconj x)) (c_values m) ;;
    Ok (mkcrs (c_rowptr m) (c_colind m) vs (c_nrow m) (c_ncol m)).

  (** makeDiagonal(row, value): src/CrsMatrix.h:462-477 *)
  Definition makeDiagonal m (row : nat) (value : R) : res (crs R) :=
    let m := mkcrs (vresize (c_rowptr m) (row + 1) 0%nat) (vresize (c_colind m) row 0%nat)
                   (vresize (c_values m) row c0) row row in
    do m <- forM row 0 (fun i m =>
      do m <- setValues m i value ;;
      do m <- setCol m i i ;;
      setRow m i i) m ;;
    setRow m row row.

  (** explicit CrsMatrix(Matrix): src/CrsMatrix.h:178-197. [norm(x) <= 0] is
      [x == 0]. *)
  Definition crs_of_dense (a : mat R) : res (crs R) :=
    do (m, counter) <- forM (m_nrow a) 0 (fun i '(m, counter) =>
      do m <- setRow m i counter ;;
      forM (m_ncol a) 0 (fun j '(m, counter) =>
        do x <- mget R a i j ;;
        if ceqb x c0 then Ok (m, counter)
        else Ok (pushCol (pushValue m x) j, S counter)) (m, counter))
      (crs_resize2 crs_empty (m_nrow a) (m_ncol a), 0%nat) ;;
    setRow m (m_nrow a) counter.

  (** fullMatrixToCrsMatrix(crsMatrix, a): src/CrsMatrix.h:789-832 (with the
      constant use_push = true) *)
  Definition fullMatrixToCrsMatrix (crsMatrix : crs R) (a : mat R) : res (crs R) :=
    let rows := m_nrow a in
    let cols := m_ncol a in
    do (m, counter) <- forM rows 0 (fun i '(m, counter) =>
      do m <- setRow m i counter ;;
      forM cols 0 (fun j '(m, counter) =>
        do val <- mget R a i j ;;
        if ceqb val c0 then Ok (m, counter)
        else Ok (pushCol (pushValue m val) j, S counter)) (m, counter))
      (crs_resize2 crsMatrix rows cols, 0%nat) ;;
    setRow m rows counter.

  (** crsMatrixToFullMatrix(m, crsMatrix): src/CrsMatrix.h:774-785 *)
  Definition crsMatrixToFullMatrix (d : mat R) (A : crs R) : res (mat R) :=
    forM (c_nrow A) 0 (fun i d =>
      for_row A i (fun k d =>
        do j <- getCol A k ;; do v <- getValue A k ;; mset R d i j v) d)
      (mat_resize_val R d (c_nrow A) (c_ncol A) c0).

  (** toDense(): src/CrsMatrix.h:504-509 *)
  Definition crs_toDense A : res (mat R) := crsMatrixToFullMatrix (mat_empty R) A.

  (** CrsMatrix(rank, rows, cols, vals): src/CrsMatrix.h:199-228; [srt] is
      std::sort *)
  Definition crs_of_triplets (srt : list (nat * nat) -> list (nat * nat)) (rank : nat)
      (rows2 cols : list nat) (vals : list R) : res (crs R) :=
    do (rows, iperm) <- sort srt rows2 (repeat 0%nat (length rows2)) 0 ;;
    do row0 <- vget rows 0 ;;
    do (m, counter, prevRow) <- forM (length rows) 0 (fun i '(m, counter, prevRow) =>
      do row <- vget rows i ;;
      do (m, counter, prevRow) <-
        (if negb (prevRow =? row)%nat
         then do m <- setRow m row counter ;; Ok (m, S counter, row)
         else Ok (m, counter, prevRow)) ;;
      do ip <- vget iperm i ;;
      do c <- vget cols ip ;;
      do v <- vget vals ip ;;
      Ok (pushValue (pushCol m c) v, counter, prevRow))
      (mkcrs (repeat 0%nat (rank + 1)) [] [] rank rank, 0%nat, (row0 + 1)%nat) ;;
    do lastNonZeroRow <- vget rows (length rows - 1) ;;
    forR (lastNonZeroRow + 1) (rank + 1) (fun i m => setRow m i counter) m.

  (** matrixVectorProduct(x, y): src/CrsMatrix.h:414-428 *)
  Definition matrixVectorProduct A (x y : list R) : res (list R) :=
    guard (length x =? length y)%nat ;;
    forM (length y) 0 (fun i x =>
      for_row A i (fun j x =>
        do v <- vget (c_values A) j ;;
        do c <- vget (c_colind A) j ;;
        do yc <- vget y c ;;
        do xi <- vget x i ;;
        vset x i (xi + v * yc)) x) x.

  (** multiply(v2, m, v1): src/CrsMatrix.h:1094-1105 *)
  Definition multiply_vec (v2 : list R) m (v1 : list R) : res (list R) :=
    forM (c_nrow m) 0 (fun i v2 =>
      do v2 <- vset v2 i c0 ;;
      for_row m i (fun j v2 =>
        do v <- getValue m j ;;
        do c <- getCol m j ;;
        do y <- vget v1 c ;;
        do x <- vget v2 i ;;
        vset v2 i (x + v * y)) v2)
      (vresize v2 (c_nrow m) c0).

  (** multiply(C, A, B): src/CrsMatrix.h:1045-1091. [ptr] holds [None] for the
      -1 of the code. *)
  Definition multiply C A B : res (crs R) :=
    let n := c_nrow A in
    do (C, mlast, ptr, index, temp) <- forM n 0 (fun i '(C, mlast, ptr, index, temp) =>
      do C <- setRow C i mlast ;;
      do (itemp, ptr, index, temp) <- for_row A i (fun j '(itemp, ptr, index, temp) =>
        do acol <- getCol A j ;;
        do istart <- getRowPtr B acol ;;
        do iend <- getRowPtr B (acol + 1) ;;
        forR istart iend (fun k '(itemp, ptr, index, temp) =>
          do jbk <- getCol B k ;;
          do av <- getValue A j ;; do bv <- getValue B k ;;
          let tmp := av * bv in
          do p <- vget ptr jbk ;;
          match p with
          | None =>
              do ptr <- vset ptr jbk (Some itemp) ;;
              do temp <- vset temp itemp tmp ;;
              do index <- vset index itemp jbk ;;
              Ok (S itemp, ptr, index, temp)
          | Some q =>
              do t <- vget temp q ;;
              do temp <- vset temp q (t + tmp) ;;
              Ok (itemp, ptr, index, temp)
          end) (itemp, ptr, index, temp)) (0%nat, ptr, index, temp) ;;
      do (C, ptr) <- forM itemp 0 (fun s '(C, ptr) =>
        do t <- vget temp s ;;
        do ix <- vget index s ;;
        do ptr <- vset ptr ix (@None nat) ;;
        Ok (pushCol (pushValue C t) ix, ptr)) (C, ptr) ;;
      Ok (C, (mlast + itemp)%nat, ptr, index, temp))
      (crs_resize2 C n (c_ncol B), 0%nat, repeat (@None nat) (c_ncol B),
       repeat 0%nat (c_ncol B), repeat c0 (c_ncol B)) ;;
    setRow C n mlast.

  (** transposeConjugate(B, A): src/CrsMatrix.h:1108-1180 *)
  Definition crs_transposeConjugate B A : res (crs R) :=
    let nrowB := c_ncol A in
    let ncolB := c_nrow A in
    do nnz <- crs_nonZeros A ;;
    let B := crs_resize3 B nrowB ncolB nnz in
    (* first pass: entries per column of A *)
    do nnz_count <- forM (c_nrow A) 0 (fun ia cnt =>
      for_row A ia (fun k cnt =>
        do ja <- getCol A k ;; do x <- vget cnt ja ;; vset cnt ja (S x)) cnt)
      (repeat 0%nat (c_ncol A)) ;;
    (* row pointers *)
    do (B, ipos) <- forM nrowB 0 (fun ib '(B, ipos) =>
      do B <- setRow B ib ipos ;;
      do x <- vget nnz_count ib ;;
      Ok (B, (ipos + x)%nat)) (B, 0%nat) ;;
    guard (ipos =? nnz)%nat ;;
    do B <- setRow B nrowB nnz ;;
    do B_rowptr <- forM nrowB 0 (fun ib ptr =>
      do x <- getRowPtr B ib ;; vset ptr ib x) (repeat 0%nat nrowB) ;;
    (* second pass *)
    do (B, B_rowptr) <- forM (c_nrow A) 0 (fun ia '(B, B_rowptr) =>
      for_row A ia (fun k '(B, B_rowptr) =>
        do ja <- getCol A k ;;
        do aij <- getValue A k ;;
        do ip <- vget B_rowptr ja ;;
        do B <- setCol B ip ia ;;
        do B <- setValues B ip (cconj aij) ;;
        do B_rowptr <- vset B_rowptr ja (S ip) ;;
        Ok (B, B_rowptr)) (B, B_rowptr)) (B, B_rowptr) ;;
    Ok B.

  (** operatorPlus(A, B, b1, C, c1): src/CrsMatrix.h:1183-1327 *)
  Definition plus_add (M : crs R) (t : R) (ks ke : nat) (valueTmp : list R) : res (list R) :=
    forR ks ke (fun k valueTmp =>
      do x <- getValue M k ;;
      do jcol <- getCol M k ;;
      do v <- vget valueTmp jcol ;;
      vset valueTmp jcol (v + x * t)) valueTmp.

  Definition plus_copy (M : crs R) (ks ke : nat) (valueTmp : list R)
      (st : crs R * nat * list bool) : res (crs R * nat * list bool) :=
    forR ks ke (fun k '(A, counter, examined) =>
      do jcol <- getCol M k ;;
      do e <- vget examined jcol ;;
      if negb e then
        do examined <- vset examined jcol true ;;
        do aij <- vget valueTmp jcol ;;
        if negb (ceqb aij c0)
        then Ok (pushValue (pushCol A jcol) aij, S counter, examined)
        else Ok (A, counter, examined)
      else Ok (A, counter, examined)) st.

  Definition plus_reset (M : crs R) (ks ke : nat)
      (st : list R * list bool) : res (list R * list bool) :=
    forR ks ke (fun k '(valueTmp, examined) =>
      do jcol <- getCol M k ;;
      do valueTmp <- vset valueTmp jcol c0 ;;
      do examined <- vset examined jcol false ;;
      Ok (valueTmp, examined)) st.

  Definition operatorPlus (A : crs R) B (b1 : R) C (c1' : R) : res (crs R) :=
    let nrow_A := if (c_nrow C <=? c_nrow B)%nat then c_nrow B else c_nrow C in
    let ncol_A := if (c_ncol C <=? c_ncol B)%nat then c_ncol B else c_ncol C in
    do _ <- crs_nonZeros B ;;
    do _ <- crs_nonZeros C ;;
    do (A, counter, _, _) <- forM nrow_A 0 (fun irow '(A, counter, valueTmp, examined) =>
      do A <- setRow A irow counter ;;
      do kstart_B <- (if (irow <? c_nrow B)%nat then getRowPtr B irow else Ok 0%nat) ;;
      do kend_B <- (if (irow <? c_nrow B)%nat then getRowPtr B (irow + 1) else Ok 0%nat) ;;
      do kstart_C <- (if (irow <? c_nrow C)%nat then getRowPtr C irow else Ok 0%nat) ;;
      do kend_C <- (if (irow <? c_nrow C)%nat then getRowPtr C (irow + 1) else Ok 0%nat) ;;
      let has_work := (1 <=? (kend_B - kstart_B) + (kend_C - kstart_C))%nat in
      if negb has_work then Ok (A, counter, valueTmp, examined) else
      do valueTmp <- plus_add B b1 kstart_B kend_B valueTmp ;;
      do valueTmp <- plus_add C c1' kstart_C kend_C valueTmp ;;
      do st <- plus_copy B kstart_B kend_B valueTmp (A, counter, examined) ;;
      do (A, counter, examined) <- plus_copy C kstart_C kend_C valueTmp st ;;
      do st <- plus_reset B kstart_B kend_B (valueTmp, examined) ;;
      do (valueTmp, examined) <- plus_reset C kstart_C kend_C st ;;
      Ok (A, counter, valueTmp, examined))
      (crs_resize2 A nrow_A ncol_A, 0%nat, repeat c0 ncol_A, repeat false ncol_A) ;;
    do A <- setRow A nrow_A counter ;;
    Ok (crs_resize3 A nrow_A ncol_A counter).

  (** add(c, m, t1): src/CrsMatrix.h:669-681 *)
  Definition crs_add (this c m : crs R) (t1 : R) : res (crs R) :=
    guard (c_nrow m =? c_ncol m)%nat ;;
    if (c_nrow m <=? c_nrow this)%nat then operatorPlus c this c1 m t1
    else operatorPlus c m t1 this c1.

  (** this += m: src/CrsMatrix.h:388-394 *)
  Definition crs_plus_eq (this m : crs R) : res (crs R) := crs_add this crs_empty m c1.

  (** this += t * m: src/CrsMatrix.h:550-562 *)
  Definition crs_plus_eq_scaled (this : crs R) (t : R) (m : crs R) : res (crs R) :=
    crs_add this crs_empty m t.

  (** this += t * a * b: src/CrsMatrix.h:564-578 *)
  Definition crs_plus_eq_product (this : crs R) (t : R) (a b : crs R) : res (crs R) :=
    do s <- multiply crs_empty a b ;; crs_add this crs_empty s t.

  (** sum(A, Bmats, bvec): src/CrsMatrix.h:1330-1468 *)
  Definition crs_sum (A : crs R) (Bmats : list (crs R)) (bvec : list R) : res (crs R) :=
    do (nrow_A, ncol_A) <- forL Bmats (fun thisMat '(nrow_A, ncol_A) =>
      do _ <- crs_nonZeros thisMat ;;
      Ok (if (nrow_A <? c_nrow thisMat)%nat then c_nrow thisMat else nrow_A,
          if (ncol_A <? c_ncol thisMat)%nat then c_ncol thisMat else ncol_A)) (0%nat, 0%nat) ;;
    do (A, counter, _, _) <- forM nrow_A 0 (fun irow '(A, counter, valueTmp, examined) =>
      do A <- setRow A irow counter ;;
      do (valueTmp, examined, column_index) <-
        forM (length Bmats) 0 (fun imat '(valueTmp, examined, column_index) =>
          do thisMat <- vget Bmats imat ;;
          do kstart_B <- (if (irow <? c_nrow thisMat)%nat then getRowPtr thisMat irow else Ok 0%nat) ;;
          do kend_B <- (if (irow <? c_nrow thisMat)%nat then getRowPtr thisMat (irow + 1) else Ok 0%nat) ;;
          if negb (1 <=? kend_B - kstart_B)%nat then Ok (valueTmp, examined, column_index) else
          do b1 <- vget bvec imat ;;
          forR kstart_B kend_B (fun k '(valueTmp, examined, column_index) =>
            do bij <- getValue thisMat k ;;
            do jcol <- getCol thisMat k ;;
            do e <- vget examined jcol ;;
            if (e : bool) then
              do v <- vget valueTmp jcol ;;
              do valueTmp <- vset valueTmp jcol (v + bij * b1) ;;
              Ok (valueTmp, examined, column_index)
            else
              do examined <- vset examined jcol true ;;
              do valueTmp <- vset valueTmp jcol (bij * b1) ;;
              Ok (valueTmp, examined, column_index ++ [jcol]))
            (valueTmp, examined, column_index)) (valueTmp, examined, []) ;;
      let kmax := length column_index in
      do (A, examined) <- forM kmax 0 (fun k '(A, examined) =>
        do jcol <- vget column_index k ;;
        do v <- vget valueTmp jcol ;;
        do examined <- vset examined jcol false ;;
        Ok (pushValue (pushCol A jcol) v, examined)) (A, examined) ;;
      Ok (A, (counter + kmax)%nat, valueTmp, examined))
      (crs_resize2 A nrow_A ncol_A, 0%nat, repeat c0 ncol_A, repeat false ncol_A) ;;
    do A <- setRow A nrow_A counter ;;
    Ok (crs_resize3 A nrow_A ncol_A counter).

  (** externalProduct(B, A, nout, signs, order, permutationFull), the product
      with an identity: src/CrsMatrix.h:840-964 *)
  Definition externalProduct1 B A (nout : nat) (signs : list R) (order : bool)
      (permutationFull : list nat) : res (crs R) :=
    let nrow_A := c_nrow A in
    let ncol_A := c_ncol A in
    let nrow_eye := nout in
    do nnz_A <- crs_nonZeros A ;;
    let nrow_B := (nout * nrow_A)%nat in
    let ncol_B := (nout * ncol_A)%nat in
    let nnz_B := (nout * nnz_A)%nat in
    let B := crs_resize3 B nrow_B ncol_B nnz_B in
    if negb (nrow_A =? ncol_A)%nat then Throw else
    guard (nrow_A * nrow_eye <=? length permutationFull)%nat ;;
    (* entries per row of B *)
    do nnz_B_row <- forM nrow_A 0 (fun ia cnt =>
      do b <- getRowPtr A (ia + 1) ;; do a <- getRowPtr A ia ;;
      let nnz_row := (b - a)%nat in
      forM nrow_eye 0 (fun ie cnt =>
        do ib <- (if order then vget permutationFull (ia + ie * nrow_A)
                  else vget permutationFull (ie + ia * nrow_eye)) ;;
        vset cnt ib nnz_row) cnt) (repeat 0%nat nrow_B) ;;
    (* row pointers *)
    do (B, B_rowptr, ip) <- forM nrow_B 0 (fun ib '(B, B_rowptr, ip) =>
      do B_rowptr <- vset B_rowptr ib ip ;;
      do B <- setRow B ib ip ;;
      do x <- vget nnz_B_row ib ;;
      Ok (B, B_rowptr, (ip + x)%nat)) (B, repeat 0%nat nrow_B, 0%nat) ;;
    guard (ip =? nnz_B)%nat ;;
    do B <- setRow B nrow_B nnz_B ;;
    (* copy the entries *)
    do (B, B_rowptr) <- forM nrow_A 0 (fun ia '(B, B_rowptr) =>
      for_row A ia (fun k '(B, B_rowptr) =>
        do ja <- getCol A k ;;
        do aij <- getValue A k ;;
        forM nrow_eye 0 (fun ie '(B, B_rowptr) =>
          let je := ie in
          let ib := (if order then ia + ie * nrow_A else ie + ia * nrow_eye)%nat in
          let jb := (if order then ja + je * ncol_A else je + ja * nout)%nat in
          do bij <- (if order then Ok aij else do s <- vget signs ie ;; Ok (aij * s)) ;;
          do pib <- vget permutationFull ib ;;
          do ip <- vget B_rowptr pib ;;
          do pjb <- vget permutationFull jb ;;
          do B <- setCol B ip pjb ;;
          do B <- setValues B ip bij ;;
          do B_rowptr <- vset B_rowptr pib (S ip) ;;
          Ok (B, B_rowptr)) (B, B_rowptr)) (B, B_rowptr)) (B, B_rowptr) ;;
    Ok B.

  (** externalProduct(C, A, B, signs, order, permutationFull):
      src/CrsMatrix.h:975-1020 *)
  Definition externalProduct2 C A B (signs : list R) (order : bool)
      (permutationFull : list nat) : res (crs R) :=
    let nfull := length permutationFull in
    do perm <- forM nfull 0 (fun i perm =>
      do p <- vget permutationFull i ;; vset perm p i) (repeat 0%nat nfull) ;;
    let nout := c_nrow B in
    let na := c_nrow A in
    let noutOrNa := if negb order then nout else na in
    let AorB := if negb order then A else B in
    let BorA := if negb order then B else A in
    guard (c_nrow A =? c_ncol A)%nat ;;
    guard (c_nrow B =? c_ncol B)%nat ;;
    guard (nout * na =? nfull)%nat ;;
    guard (length signs =? noutOrNa)%nat ;;
    do (C, counter) <- forM nfull 0 (fun i '(C, counter) =>
      do C <- setRow C i counter ;;
      do ind <- vget perm i ;;
      guard (0 <? noutOrNa)%nat ;;    (* ldiv by zero *)
      let q := (ind / noutOrNa)%nat in
      let r := (ind mod noutOrNa)%nat in
      for_row BorA r (fun k1 '(C, counter) =>
        do col1 <- getCol BorA k1 ;;
        for_row AorB q (fun k2 '(C, counter) =>
          do col2 <- getCol AorB k2 ;;
          do j <- vget permutationFull (col1 + col2 * noutOrNa) ;;
          do v1 <- getValue BorA k1 ;;
          do v2 <- getValue AorB k2 ;;
          do s <- vget signs r ;;
          Ok (pushValue (pushCol C j) (v1 * v2 * s), S counter)) (C, counter)) (C, counter))
      (crs_resize2 C nfull nfull, 0%nat) ;;
    setRow C nfull counter.

  (** fromBlockToFull(Bfull, B, offset): src/CrsMatrix.h:1490-1534 (with the
      constant use_push = true) *)
  Definition fromBlockToFull (Bfull : crs R) B (offset : nat) : res (crs R) :=
    let nrows := c_nrow Bfull in
    let ncols := c_ncol Bfull in
    do _ <- crs_nonZeros B ;;
    let Bfull := crs_resize2 (crs_clear Bfull) nrows ncols in
    do Bfull <- forM offset 0 (fun i Bfull => setRow Bfull i 0) Bfull ;;
    do (Bfull, counter) <- forM (c_nrow B) 0 (fun ii '(Bfull, counter) =>
      let i := (ii + offset)%nat in
      do Bfull <- setRow Bfull i counter ;;
      for_row B ii (fun jj '(Bfull, counter) =>
        do c <- getCol B jj ;;
        let j := (c + offset)%nat in
        do tmp <- getValue B jj ;;
        Ok (pushValue (pushCol Bfull j) tmp, S counter)) (Bfull, counter)) (Bfull, 0%nat) ;;
    do Bfull <- forR (c_nrow B + offset) (c_nrow Bfull) (fun i Bfull => setRow Bfull i counter) Bfull ;;
    setRow Bfull (c_nrow Bfull) counter.

  (** isHermitian, isAntiHermitian: src/CrsMatrix.h:1470-1488. [big] as in
      Dense_Model.v. *)
  Definition crs_isHermitian (big : R -> bool) A : res bool :=
    if negb (c_nrow A =? c_ncol A)%nat then Ok false else
    do d <- crsMatrixToFullMatrix (mat_empty R) A ;; mat_isHermitian R big d.

  Definition crs_isAntiHermitian (big : R -> bool) A : res bool :=
    if negb (c_nrow A =? c_ncol A)%nat then Ok false else
    do d <- crsMatrixToFullMatrix (mat_empty R) A ;; mat_isAntiHermitian R big d.

  (** isDiagonal(A, eps, checkForIdentity): src/CrsMatrix.h:1536-1556; [big] is
      the test norm(x) > eps. *)
  Definition crs_isDiagonal (big : R -> bool) A (checkForIdentity : bool) : res bool :=
    if negb (c_nrow A =? c_ncol A)%nat then Ok false else
    forM (c_nrow A) 0 (fun i (ok : bool) =>
      for_row A i (fun k (ok : bool) =>
        if negb ok then Ok false else
        do col <- getCol A k ;;
        do val <- getValue A k ;;
        if checkForIdentity && (col =? i)%nat && big (val + - c1) then Ok false
        else if negb (col =? i)%nat && big val then Ok false
        else Ok true) ok) true.

  (** isTheIdentity(A, eps): src/CrsMatrix.h:1558-1562 *)
  Definition crs_isTheIdentity (big : R -> bool) A : res bool := crs_isDiagonal big A true.

  (** norm2(m): src/CrsMatrix.h:1564-1572; taking the real part of the (real)
      sum is left out. *)
  Definition crs_norm2 m : res R :=
    forM (length (c_values m)) 0 (fun i val =>
      do x <- vget (c_values m) i ;; Ok (val + cconj x * x)) c0.

  (** multiplyTc(a, b): src/CrsMatrix.h:1574-1584 *)
  Definition multiplyTc (a b : crs R) : res (mat R) :=
    do bb <- crs_transposeConjugate crs_empty b ;;
    do c <- multiply crs_empty a bb ;;
    crsMatrixToFullMatrix (mat_empty R) c.

  (** isZero(A, eps): src/CrsMatrix.h:1586-1596 *)
  Definition crs_isZero (big : R -> bool) A : res bool :=
    forM (length (c_values A)) 0 (fun i (ok : bool) =>
      if negb ok then Ok false else
      do x <- vget (c_values A) i ;; Ok (negb (big x))) true.

  (** operator==: src/CrsMatrix.h:355-358 *)
  Definition crs_eqb A B : bool :=
    (c_nrow A =? c_nrow B)%nat && (c_ncol A =? c_ncol B)%nat &&
    (if list_eq_dec Nat.eq_dec (c_rowptr A) (c_rowptr B) then true else false) &&
    (if list_eq_dec Nat.eq_dec (c_colind A) (c_colind B) then true else false) &&
    list_eqb R (c_values A) (c_values B).
End Crs.
