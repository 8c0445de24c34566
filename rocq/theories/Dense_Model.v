(** Model of the dense matrix class of src/Matrix.h and of its companion
    functions. LAPACK/BLAS calls, MPI, and printing are not modelled here
    (text input/output is in Text_*.v). *)
From Verif Require Import Prelude Ring Vec_Model.

Record mat (R : cring) : Type := mkmat {
  m_nrow : nat;             (* nrow_ : src/Matrix.h:585 *)
  m_ncol : nat;             (* ncol_ : src/Matrix.h:586 *)
  m_data : list R           (* data_ : src/Matrix.h:587 *)
}.
Arguments mkmat {R} _ _ _.
Arguments m_nrow {R} _.
Arguments m_ncol {R} _.
Arguments m_data {R} _.

Section Dense.
  Variable R : cring.
  Local Open Scope cring_scope.
  Implicit Types (a b m : mat R).

  (** Matrix(): src/Matrix.h:58-62 *)
  Definition mat_empty : mat R := mkmat 0 0 [].

  (** Matrix(nrow, ncol): src/Matrix.h:64-69 (elements value-initialised to 0) *)
  Definition mat_new (nrow ncol : nat) : mat R := mkmat nrow ncol (repeat c0 (nrow * ncol)).

  (** Matrix(nrow, ncol, value): src/Matrix.h:71-76 *)
  Definition mat_fill (nrow ncol : nat) (x : R) : mat R :=
    mkmat nrow ncol (repeat x (nrow * ncol)).

  (** Matrix(data, nrow, ncol): src/Matrix.h:78-87 *)
  Definition mat_of_data (data : list R) (nrow ncol : nat) : res (mat R) :=
    if (length data <? nrow * ncol)%nat then Throw
    else Ok (mkmat nrow ncol (vresize data (nrow * ncol) c0)).

  (** operator()(i, j) const: src/Matrix.h:266-271 *)
  Definition mget m (i j : nat) : res R :=
    guard ((i <? m_nrow m)%nat && (j <? m_ncol m)%nat) ;;
    vget (m_data m) (i + j * m_nrow m)%nat.

  (** operator()(i, j) = x: src/Matrix.h:273-278 *)
  Definition mset m (i j : nat) (x : R) : res (mat R) :=
    guard ((i <? m_nrow m)%nat && (j <? m_ncol m)%nat) ;;
    do d <- vset (m_data m) (i + j * m_nrow m)%nat x ;;
    Ok (mkmat (m_nrow m) (m_ncol m) d).

  (** operator==: src/Matrix.h:280-283 *)
  Fixpoint list_eqb (u v : list R) : bool :=
    match u, v with
    | [], [] => true
    | x :: u', y :: v' => ceqb x y && list_eqb u' v'
    | _, _ => false
    end.

  Definition mat_eqb a b : bool :=
    (m_nrow a =? m_nrow b)%nat && (m_ncol a =? m_ncol b)%nat && list_eqb (m_data a) (m_data b).

  (** conjugate(): src/Matrix.h:228-233 *)
  Definition mat_conj m : res (mat R) :=
    do d <- each R (fun i u => do x <- vget u i ;; Ok (cconj x)) (m_data m) ;;
    Ok (mkmat (m_nrow m) (m_ncol m) d).

  (** nonZeros(): src/Matrix.h:235-246 *)
  Definition mat_nonZeros m : res nat :=
    let n := (m_nrow m * m_ncol m)%nat in
    guard (n <=? length (m_data m))%nat ;;
    forM n 0 (fun i count => do x <- vget (m_data m) i ;;
                             Ok (if negb (ceqb x c0) then S count else count)) 0%nat.

  (** resize(nrow, ncol, val): src/Matrix.h:285-290 *)
  Definition mat_resize_val m (nrow ncol : nat) (x : R) : mat R :=
    mkmat nrow ncol (vresize (m_data m) (nrow * ncol) x).

  (** resize(nrow, ncol): src/Matrix.h:292-301 *)
  Definition mat_resize m (nrow ncol : nat) : res (mat R) :=
    if (0 <? m_nrow m)%nat && negb (m_nrow m =? nrow)%nat then Throw
    else Ok (mkmat nrow ncol (vresize (m_data m) (nrow * ncol) c0)).

  (** operator+=(Matrix): src/Matrix.h:303-310 *)
  Definition mat_plus_eq m other : res (mat R) :=
    guard (length (m_data m) =? m_ncol m * m_nrow m)%nat ;;
    let total := Nat.min (length (m_data m)) (length (m_data other)) in
    do d <- forM total 0
              (fun i u => do x <- vget u i ;; do y <- vget (m_data other) i ;; vset u i (x + y))
              (m_data m) ;;
    Ok (mkmat (m_nrow m) (m_ncol m) d).

  (** operator-=(Matrix): src/Matrix.h:312-318 *)
  Definition mat_minus_eq m other : res (mat R) :=
    do d <- forM (m_ncol m * m_nrow m) 0
              (fun i u => do x <- vget u i ;; do y <- vget (m_data other) i ;; vset u i (x - y))
              (m_data m) ;;
    Ok (mkmat (m_nrow m) (m_ncol m) d).

  (** operator*=(value): src/Matrix.h:320-325 *)
  Definition mat_times_eq m (t : R) : res (mat R) :=
    do d <- forM (m_ncol m * m_nrow m) 0
              (fun i u => do x <- vget u i ;; vset u i (x * t)) (m_data m) ;;
    Ok (mkmat (m_nrow m) (m_ncol m) d).

  (** setTo(val): src/Matrix.h:352-356 *)
  Definition mat_setTo m (x : R) : res (mat R) :=
    do d <- each R (fun i u => Ok x) (m_data m) ;;
    Ok (mkmat (m_nrow m) (m_ncol m) d).

  (** setToIdentity(): src/Matrix.h:358-369 *)
  Definition mat_setToIdentity m : res (mat R) :=
    if negb (m_nrow m =? m_ncol m)%nat then Throw else
    do m <- mat_setTo m c0 ;;
    forM (m_nrow m) 0 (fun i m => mset m i i c1) m.

  (** [for (i<r) for (j<c) m(i,j) = body(i,j)]: the loop nest shared by the
      functions below; the body reads the current target. *)
  Definition fill2 (r c : nat) (body : nat -> nat -> mat R -> res R) m : res (mat R) :=
    forM r 0 (fun i m => forM c 0 (fun j m => do x <- body i j m ;; mset m i j x) m) m.

  (** matrixMatrix(a, b, t1), the product behind [m = t1 * a * b] and
      [m = a * b]: src/Matrix.h:566-583, 539-548, 450-458, 117-121. The result
      is built in a fresh matrix and then copied, so the operands may be the
      assigned matrix. *)
  Definition matrixMatrix a b (t1 : R) : res (mat R) :=
    guard (m_ncol a =? m_nrow b)%nat ;;
    fill2 (m_nrow a) (m_ncol b)
      (fun i j _ =>
         do s <- forM (m_ncol a) 0
                   (fun k sum => do x <- mget a i k ;; do y <- mget b k j ;; Ok (sum + x * y)) c0 ;;
         Ok (s * t1))
      (mat_new (m_nrow a) (m_ncol b)).

  (** Assignments of closures; the operand may be the assigned matrix.
      [msrc] is like [src] for matrices. *)
  Inductive msrc := MSelf | MOther (w : mat R).
  Definition mderef (s : msrc) m : mat R := match s with MSelf => m | MOther w => w end.
  Definition dsrc (s : msrc) : src R := match s with MSelf => Self | MOther w => Other (m_data w) end.

  (** m = t * a (also m = a * t): src/Matrix.h:426-448 *)
  Definition mat_assign_scale m (t : R) (a : msrc) : res (mat R) :=
    do d <- assign_scale R (m_data m) t (dsrc a) ;;
    Ok (mkmat (m_nrow (mderef a m)) (m_ncol (mderef a m)) d).

  (** m = a + b: src/Matrix.h:485-496 *)
  Definition mat_assign_plus m (a b : msrc) : res (mat R) :=
    let A := mderef a m in
    let m' := mkmat (m_nrow A) (m_ncol A) (m_data m) in
    guard ((m_nrow m' =? m_nrow (mderef b m'))%nat && (m_ncol m' =? m_ncol (mderef b m'))%nat) ;;
    do d <- assign_plus R (m_data m) (dsrc a) (dsrc b) ;;
    Ok (mkmat (m_nrow A) (m_ncol A) d).

  (** m = a - b: src/Matrix.h:498-509 *)
  Definition mat_assign_minus m (a b : msrc) : res (mat R) :=
    let A := mderef a m in
    let m' := mkmat (m_nrow A) (m_ncol A) (m_data m) in
    guard ((m_nrow m' =? m_nrow (mderef b m'))%nat && (m_ncol m' =? m_ncol (mderef b m'))%nat) ;;
    do d <- assign_minus R (m_data m) (dsrc a) (dsrc b) ;;
    Ok (mkmat (m_nrow A) (m_ncol A) d).

  (** m = a + t * b: src/Matrix.h:511-523 *)
  Definition mat_assign_axpy m (a : msrc) (t : R) (b : msrc) : res (mat R) :=
    let A := mderef a m in
    let m' := mkmat (m_nrow A) (m_ncol A) (m_data m) in
    guard ((m_nrow m' =? m_nrow (mderef b m'))%nat && (m_ncol m' =? m_ncol (mderef b m'))%nat) ;;
    do d <- assign_axpy R (m_data m) (dsrc a) t (dsrc b) ;;
    Ok (mkmat (m_nrow A) (m_ncol A) d).

  (** m = t * (a + b): src/Matrix.h:460-470 *)
  Definition mat_assign_scale_plus m (t : R) (a b : msrc) : res (mat R) :=
    let A := mderef a m in
    do d <- assign_scale_plus R (m_data m) t (dsrc a) (dsrc b) ;;
    Ok (mkmat (m_nrow A) (m_ncol A) d).

  (** m = t * (a - b): src/Matrix.h:472-483 *)
  Definition mat_assign_scale_minus m (t : R) (a b : msrc) : res (mat R) :=
    let A := mderef a m in
    do d <- assign_scale_minus R (m_data m) t (dsrc a) (dsrc b) ;;
    Ok (mkmat (m_nrow A) (m_ncol A) d).

  (** m += t * a with resizeIfNeeded: src/Matrix.h:394-424, 557-564 *)
  Definition mat_plus_eq_scaled m (t : R) (a : mat R) : res (mat R) :=
    let cSize := length (m_data a) in
    if (0 <? length (m_data m))%nat && negb (cSize =? length (m_data m))%nat then Throw else
    let data := if (length (m_data m) =? 0)%nat then vresize (m_data m) cSize c0 else m_data m in
    do d <- plus_eq_scaled R data t (Other (m_data a)) ;;
    Ok (mkmat (m_nrow a) (m_ncol a) d).

  (** Predicates. [big x] stands for the test [PsimagLite::norm(x) > eps] of the
      code, whatever the norm and the threshold (1e-6 in isHermitian,
      isAntiHermitian and isTheIdentity, 0 in isZero).
      A [false] found in the middle of the loop nest is returned at once; the
      boolean of the model records it. *)
  Definition all2 (r c : nat) (test : nat -> nat -> res bool) : res bool :=
    forM r 0 (fun i (ok : bool) =>
      forM c 0 (fun j (ok : bool) => if ok then test i j else Ok false) ok) true.

  (** isHermitian: src/Matrix.h:800-821 *)
  Definition mat_isHermitian (big : R -> bool) a : res bool :=
    if negb (m_nrow a =? m_ncol a)%nat then Throw else
    all2 (m_nrow a) (m_nrow a)
      (fun i j => do x <- mget a i j ;; do y <- mget a j i ;; Ok (negb (big (x - cconj y)))).

  (** isAntiHermitian: src/Matrix.h:823-847 *)
  Definition mat_isAntiHermitian (big : R -> bool) a : res bool :=
    if negb (m_nrow a =? m_ncol a)%nat then Throw else
    all2 (m_nrow a) (m_nrow a)
      (fun i j => do x <- mget a i j ;; do y <- mget a j i ;; Ok (negb (big (x + cconj y)))).

  (** isTheIdentity: src/Matrix.h:849-868 (the second loop is not reached after
      a failure of the first) *)
  Definition mat_isTheIdentity (big : R -> bool) a : res bool :=
    do ok <- all2 (m_nrow a) (m_ncol a)
      (fun i j => if negb (i =? j)%nat then do x <- mget a i j ;; Ok (negb (big x)) else Ok true) ;;
    forM (m_nrow a) 0
      (fun i (ok : bool) => if ok then do x <- mget a i i ;; Ok (negb (big (x - c1))) else Ok false) ok.

  (** isZero: src/Matrix.h:870-889 *)
  Definition mat_isZero (big : R -> bool) a : res bool :=
    all2 (m_nrow a) (m_ncol a) (fun i j => do x <- mget a i j ;; Ok (negb (big x))).

  (** v <= a * b (matrix times vector): src/Matrix.h:931-945; the operand may be
      the assigned vector. *)
  Definition mat_vec (v : list R) a (b : src R) : res (list R) :=
    guard (m_ncol a =? length (deref b v))%nat ;;
    let v := vresize v (m_nrow a) c0 in
    forM (m_nrow a) 0
      (fun i v =>
         do s <- forM (length (deref b v)) 0
                   (fun j sum => do x <- mget a i j ;; do y <- vget (deref b v) j ;;
                                 Ok (sum + x * y)) c0 ;;
         vset v i s) v.

  (** v <= b * a (vector times matrix): src/Matrix.h:947-961 *)
  Definition vec_mat (v : list R) (b : src R) a : res (list R) :=
    guard (m_nrow a =? length (deref b v))%nat ;;
    let v := vresize v (m_ncol a) c0 in
    forM (m_ncol a) 0
      (fun i v =>
         do s <- forM (length (deref b v)) 0
                   (fun j sum => do y <- vget (deref b v) j ;; do x <- mget a j i ;;
                                 Ok (sum + y * x)) c0 ;;
         vset v i s) v.

  (** multiplyTransposeConjugate(O1, O2, modifier): src/Matrix.h:963-981;
      [conjq] is [modifier == 'C']. *)
  Definition multiplyTransposeConjugate (o1 o2 : mat R) (conjq : bool) : res (mat R) :=
    let n := m_nrow o1 in
    forM n 0 (fun s ret => forM n 0 (fun t ret => forM n 0 (fun w ret =>
      do x <- mget o1 w s ;; do y <- mget o2 w t ;; do z <- mget ret s t ;;
      mset ret s t (z + (if conjq then cconj x else x) * y)) ret) ret) (mat_new n n).

  (** transposeConjugate(m2, m): src/Matrix.h:983-990; [m] may be [m2]. *)
  Definition transposeConjugate2 (m2 : mat R) (m : msrc) : res (mat R) :=
    let M := mderef m m2 in
    do m2 <- mat_resize m2 (m_ncol M) (m_nrow M) ;;
    fill2 (m_nrow m2) (m_ncol m2)
      (fun i j cur => do x <- mget (mderef m cur) j i ;; Ok (cconj x)) m2.

  (** transpose(m2, m): src/Matrix.h:992-999; [m] may be [m2]. *)
  Definition transpose2 (m2 : mat R) (m : msrc) : res (mat R) :=
    let M := mderef m m2 in
    do m2 <- mat_resize m2 (m_ncol M) (m_nrow M) ;;
    fill2 (m_nrow m2) (m_ncol m2)
      (fun i j cur => mget (mderef m cur) j i) m2.

  (** transposeConjugate(A): src/Matrix.h:1001-1009 *)
  Definition transposeConjugate1 a : res (mat R) :=
    fill2 (m_ncol a) (m_nrow a)
      (fun i j _ => do x <- mget a j i ;; Ok (cconj x)) (mat_new (m_ncol a) (m_nrow a)).

  (** norm2(m), complex version: src/Matrix.h:1043-1051; the real part taken by
      the code of each (real) summand is left out. *)
  Definition mat_norm2 m : res R :=
    forM (m_nrow m) 0 (fun i sum => forM (m_ncol m) 0 (fun j sum =>
      do x <- mget m i j ;; Ok (sum + cconj x * x)) sum) c0.

  (** outerProduct(A, B, C): src/Matrix.h:1059-1072 *)
  Definition outerProduct a b (c : mat R) : res (mat R) :=
    let ni := m_nrow b in
    let nj := m_ncol b in
    do a <- mat_resize a (m_nrow b * m_nrow c) (m_ncol b * m_ncol c) ;;
    forM (m_nrow b) 0 (fun i1 a => forM (m_ncol b) 0 (fun j1 a =>
      forM (m_nrow c) 0 (fun i2 a => forM (m_ncol c) 0 (fun j2 a =>
        do x <- mget b i1 j1 ;; do y <- mget c i2 j2 ;;
        mset a (i1 + i2 * ni) (j1 + j2 * nj) (x * y)) a) a) a) a.

  (** exp(m) after [diag(m, eigs, 'V')]: src/Matrix.h:1011-1031 (and, with
      another function of the eigenvalues, expIpi: src/Matrix.h:1075-1101).
      [u] is the matrix of eigenvectors that diag leaves in [m], [e k] the
      function (exponential) of the k-th eigenvalue. *)
  Definition mat_fun_of_eigen (u : mat R) (e : nat -> R) : res (mat R) :=
    let n := m_nrow u in
    fill2 n n
      (fun i j _ =>
         forM n 0 (fun k sum => do x <- mget u i k ;; do y <- mget u j k ;;
                                Ok (sum + cconj x * y * e k)) c0)
      (mat_new n n).
End Dense.
Arguments MSelf {R}.
Arguments MOther {R} w.
Arguments mderef {R} s m.
