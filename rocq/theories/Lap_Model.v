(** Model of the decompositions of dense matrices that call LAPACK: diag and geev (src/Matrix.cpp), inverse (src/Matrix.h),
    Svd (src/Svd.h), and isThreadSafe (src/LAPACK.h). What LAPACK computes is any function of its input; what it asks of the
    arrays and numbers it is given is modelled, from its documentation. *)
From Coq Require Import Ascii String ZArith.
From Verif Require Import Prelude Ring Dense_Model.
Import List.

Definition INT_MAX : Z := 2147483647.
(** A result of int arithmetic, or a double that is converted to int: undefined if it is out of range. *)
Definition to_int (z : Z) : res Z := guard ((-2147483648 <=? z) && (z <=? INT_MAX))%Z ;; Ok z.
(** int n = m.rows(): the conversion of a size to int wraps around. *)
Definition as_int (n : nat) : Z := ((Z.of_nat n + 2147483648) mod 4294967296 - 2147483648)%Z.

(** The elements of an m times n matrix, and those of a triangle of an n times n matrix, column by column *)
Definition columns {T} (m n : nat) (f : nat -> nat -> T) : list T := flat_map (fun j => map (fun i => f i j) (seq 0 m)) (seq 0 n).
Definition triangle {T} (up : bool) (n : nat) (f : nat -> nat -> T) : list T :=
  flat_map (fun j => map (fun i => f i j) (if up then seq 0 (S j) else seq j (n - j))) (seq 0 n).

(** What the routines of LAPACK compute. Each gets the size of the workspace, its options, and the elements it reads; the
    functions with _opt give the size of workspace it asks for. The numbers at the end of the results are INFO. *)
Record lapack (T R : cring) : Type := mklapack {
  lp_complex : bool;       (* the elements are complex: zheev, zgesdd, ... *)
  lp_syev_opt : ascii -> Z -> Z;
  lp_syev : Z -> ascii -> nat -> list T -> (nat -> nat -> T) * (nat -> R) * Z;
  lp_geev_opt : ascii -> ascii -> Z -> Z;
  lp_geev : Z -> ascii -> ascii -> nat -> list T -> (nat -> nat -> T) * (nat -> T) * (nat -> nat -> T) * (nat -> nat -> T) * Z;
  lp_getrf : nat -> list T -> (nat -> nat -> T) * (nat -> Z) * Z;
  lp_getri_opt : Z -> Z;
  lp_getri : Z -> nat -> list T -> list Z -> (nat -> nat -> T) * Z;
  (* gesdd, if the flag is set, or gesvd *)
  lp_svd_opt : bool -> ascii -> Z -> Z -> Z;
  lp_svd : bool -> Z -> ascii -> nat -> nat -> list T -> (nat -> nat -> T) * (nat -> R) * (nat -> nat -> T) * (nat -> nat -> T) * Z
}.
Arguments mklapack {T R}.
Arguments lp_complex {T R}.
Arguments lp_syev_opt {T R}.
Arguments lp_syev {T R}.
Arguments lp_geev_opt {T R}.
Arguments lp_geev {T R}.
Arguments lp_getrf {T R}.
Arguments lp_getri_opt {T R}.
Arguments lp_getri {T R}.
Arguments lp_svd_opt {T R}.
Arguments lp_svd {T R}.

(** isThreadSafe: src/LAPACK.h:372-381; the version is what ilaver gives *)
Definition isThreadSafe (major minor patch : Z) : bool := if (major <? 3)%Z then false else (3 <=? minor)%Z.

Section Lap.
  Variables T R : cring.
  Variable L : lapack T R.
  Let cplx := lp_complex L.

  (** An array that holds an m times n matrix with leading dimension lda: the elements read, and the array after
      elements are written *)
  Definition block (a : list T) (lda : Z) (i j : nat) : T := nth (i + j * Z.to_nat lda) a c0.
  Definition store (a : list T) (lda : Z) (m n : nat) (f : nat -> nat -> T) : list T :=
    let d := Z.to_nat lda in
    map (fun k => if (k mod d <? m)%nat && (k / d <? n)%nat then f (k mod d) (k / d) else nth k a c0)%nat (seq 0 (List.length a)).
  Definition write {A} (v : list A) (n : nat) (f : nat -> A) (d : A) : list A :=
    map (fun k => if (k <? n)%nat then f k else nth k v d) (seq 0 (List.length v)).
  (** The array is large enough for m rows and n columns *)
  Definition fits {A} (a : list A) (lda m n : Z) : bool := ((n <=? 0) || (m <=? 0) || (lda * (n - 1) + m <=? Z.of_nat (List.length a)))%Z.
  Definition has {A} (v : list A) (n : Z) : bool := (n <=? Z.of_nat (List.length v))%Z.

  (** dsyev, ssyev, zheev, cheev: the arguments it refuses, the arrays it needs, and what it does. The lengths of the
      arrays WORK and RWORK are given, not their contents; the result after the arrays is WORK(1) and INFO. *)
  Definition syev (jobz uplo : ascii) (n : Z) (a : list T) (lda : Z) (w : list R) (work lwork rwork : Z)
      : res (list T * list R * Z * Z) :=
    if negb (Ascii.eqb jobz "N" || Ascii.eqb jobz "V") then Ok (a, w, 0, -1)%Z else
    if negb (Ascii.eqb uplo "U" || Ascii.eqb uplo "L") then Ok (a, w, 0, -2)%Z else
    if (n <? 0)%Z then Ok (a, w, 0, -3)%Z else
    if (lda <? Z.max 1 n)%Z then Ok (a, w, 0, -5)%Z else
    if ((lwork <? Z.max 1 (if cplx then 2 * n - 1 else 3 * n - 1)) && negb (lwork =? -1))%Z then Ok (a, w, 0, -8)%Z else
    guard (1 <=? work)%Z ;;
    if (lwork =? -1)%Z then Ok (a, w, lp_syev_opt L jobz n, 0)%Z else
    guard (fits a lda n n) ;;
    guard (has w n) ;;
    guard (lwork <=? work)%Z ;;
    guard (if cplx then Z.max 1 (3 * n - 2) <=? rwork else true)%Z ;;
    let k := Z.to_nat n in
    let '(v, e, info) := lp_syev L lwork jobz k (triangle (Ascii.eqb uplo "U") k (block a lda)) in
    Ok (store a lda k k v, write w k e c0, lwork, info).

  (** zgeev *)
  Definition geev_ (jobvl jobvr : ascii) (n : Z) (a : list T) (lda : Z) (w : list T) (vl : list T) (ldvl : Z) (vr : list T) (ldvr : Z)
      (work lwork rwork : Z) : res (list T * list T * list T * list T * Z * Z) :=
    let wantl := Ascii.eqb jobvl "V" in
    let wantr := Ascii.eqb jobvr "V" in
    let refuse (k : Z) := Ok (a, w, vl, vr, 0%Z, k) in
    if negb (wantl || Ascii.eqb jobvl "N") then refuse (-1)%Z else
    if negb (wantr || Ascii.eqb jobvr "N") then refuse (-2)%Z else
    if (n <? 0)%Z then refuse (-3)%Z else
    if (lda <? Z.max 1 n)%Z then refuse (-5)%Z else
    if (ldvl <? (if wantl then Z.max 1 n else 1))%Z then refuse (-8)%Z else
    if (ldvr <? (if wantr then Z.max 1 n else 1))%Z then refuse (-10)%Z else
    if ((lwork <? Z.max 1 (2 * n)) && negb (lwork =? -1))%Z then refuse (-12)%Z else
    guard (1 <=? work)%Z ;;
    if (lwork =? -1)%Z then Ok (a, w, vl, vr, lp_geev_opt L jobvl jobvr n, 0)%Z else
    guard (fits a lda n n) ;;
    guard (has w n) ;;
    guard (if wantl then fits vl ldvl n n else true) ;;
    guard (if wantr then fits vr ldvr n n else true) ;;
    guard (lwork <=? work)%Z ;;
    guard (2 * n <=? rwork)%Z ;;
    let k := Z.to_nat n in
    let '(a', e, l, r, info) := lp_geev L lwork jobvl jobvr k (columns k k (block a lda)) in
    Ok (store a lda k k a', write w k e c0, (if wantl then store vl ldvl k k l else vl),
        (if wantr then store vr ldvr k k r else vr), lwork, info).

  (** getrf of an n times n matrix *)
  Definition getrf (n : Z) (a : list T) (lda : Z) (ipiv : list Z) : res (list T * list Z * Z) :=
    if (n <? 0)%Z then Ok (a, ipiv, -1)%Z else
    if (lda <? Z.max 1 n)%Z then Ok (a, ipiv, -4)%Z else
    guard (fits a lda n n) ;;
    guard (has ipiv n) ;;
    let k := Z.to_nat n in
    let '(lu, p, info) := lp_getrf L k (columns k k (block a lda)) in
    Ok (store a lda k k lu, write ipiv k p 0%Z, info).

  (** getri *)
  Definition getri (n : Z) (a : list T) (lda : Z) (ipiv : list Z) (work lwork : Z) : res (list T * Z * Z) :=
    if (n <? 0)%Z then Ok (a, 0, -1)%Z else
    if (lda <? Z.max 1 n)%Z then Ok (a, 0, -3)%Z else
    if ((lwork <? Z.max 1 n) && negb (lwork =? -1))%Z then Ok (a, 0, -6)%Z else
    guard (1 <=? work)%Z ;;
    if (lwork =? -1)%Z then Ok (a, lp_getri_opt L n, 0)%Z else
    guard (fits a lda n n) ;;
    guard (has ipiv n) ;;
    guard (lwork <=? work)%Z ;;
    let k := Z.to_nat n in
    let '(inv, info) := lp_getri L lwork k (columns k k (block a lda)) (firstn k ipiv) in
    Ok (store a lda k k inv, lwork, info).

  (** The workspace gesdd and gesvd ask for: LWORK and the lengths of RWORK and IWORK *)
  Definition svd_lwork (dd : bool) (m n : Z) : Z :=
    let mn := Z.min m n in let mx := Z.max m n in
    Z.max 1 (if dd then (if cplx then mn * mn + 2 * mn + mx else 4 * mn * mn + 7 * mn)
             else (if cplx then 2 * mn + mx else Z.max (3 * mn + mx) (5 * mn)))%Z.
  Definition svd_rwork (dd : bool) (m n : Z) : Z :=
    let mn := Z.min m n in let mx := Z.max m n in
    (if cplx then if dd then Z.max 1 (mn * Z.max (5 * mn + 7) (2 * mx + 2 * mn + 1)) else 5 * mn else 0)%Z.

  (** gesdd (if [dd]) or gesvd with both options equal, for the options A and S; other options are not modelled. *)
  Definition gesxd (dd : bool) (jobz : ascii) (m n : Z) (a : list T) (lda : Z) (s : list R) (u : list T) (ldu : Z) (vt : list T) (ldvt : Z)
      (work lwork rwork iwork : Z) : res (list T * list R * list T * list T * Z * Z) :=
    let mn := Z.min m n in
    let all := Ascii.eqb jobz "A" in
    let refuse (k : Z) := Ok (a, s, u, vt, 0%Z, if dd then k else (k - 1)%Z) in
    guard (all || Ascii.eqb jobz "S") ;;
    if (m <? 0)%Z then refuse (-2)%Z else
    if (n <? 0)%Z then refuse (-3)%Z else
    if (lda <? Z.max 1 m)%Z then refuse (-5)%Z else
    if (ldu <? Z.max 1 m)%Z then refuse (-8)%Z else
    if (ldvt <? Z.max 1 (if all then n else mn))%Z then refuse (-10)%Z else
    if ((lwork <? svd_lwork dd m n) && negb (lwork =? -1))%Z then refuse (-12)%Z else
    guard (1 <=? work)%Z ;;
    if (lwork =? -1)%Z then Ok (a, s, u, vt, lp_svd_opt L dd jobz m n, 0)%Z else
    guard (fits a lda m n) ;;
    guard (has s mn) ;;
    guard (fits u ldu m (if all then m else mn)) ;;
    guard (fits vt ldvt (if all then n else mn) n) ;;
    guard (lwork <=? work)%Z ;;
    guard (svd_rwork dd m n <=? rwork)%Z ;;
    guard (if dd then 8 * mn <=? iwork else true)%Z ;;
    let km := Z.to_nat m in let kn := Z.to_nat n in let k := Z.to_nat mn in
    let '(a', e, x, y, info) := lp_svd L dd lwork jobz km kn (columns km kn (block a lda)) in
    Ok (store a lda km kn a', write s k e c0, store u ldu km (if all then km else k) x, store vt ldvt (if all then kn else k) kn y, lwork, info).

  (** diag: src/Matrix.cpp:15-50 (double), 52-84 (complex<double>), 86-122 (float), 124-157 (complex<float>). The
      references to m(0, 0) and eigs[0] need an element. *)
  Definition diag (m : mat T) (eigs : list R) (option : ascii) : res (mat T * list R) :=
    let uplo := "U"%char in
    let n := as_int (m_nrow m) in
    let lda := as_int (m_ncol m) in
    do rwork <- (if cplx then to_int (3 * n) else Ok 0%Z) ;;
    guard (0 <=? rwork)%Z ;;
    if negb cplx && (lda <=? 0)%Z then Throw else
    guard (0 <=? n)%Z ;;
    let eigs := vresize eigs (Z.to_nat n) c0 in
    do _ <- mget T m 0 0 ;;
    do _ <- vget eigs 0 ;;
    do (a, eigs, work0, info) <- syev option uplo n (m_data m) lda eigs 3 (-1) rwork ;;
    if negb (info =? 0)%Z then Throw else
    let NB := 256%Z in
    do q <- to_int work0 ;;
    do q1 <- to_int (1 + q) ;;
    do bn <- to_int ((NB + 2) * n) ;;
    let lwork := Z.max q1 bn in
    do (a, eigs, _, info) <- syev option uplo n a lda eigs lwork lwork rwork ;;
    if negb (info =? 0)%Z then Throw else
    Ok (mkmat (m_nrow m) (m_ncol m) a, eigs).

  (** geev: src/Matrix.cpp:159-184 *)
  Definition geev (jobvl jobvr : ascii) (a : mat T) (w : list T) (vl vr : mat T) : res (mat T * list T * mat T * mat T) :=
    let n := as_int (m_nrow a) in
    let lda := as_int (m_ncol a) in
    let ldvl := as_int (m_nrow vl) in
    let ldvr := as_int (m_nrow vr) in
    do n2 <- to_int (2 * n) ;;
    do rwork <- to_int (n2 + 1) ;;
    guard (0 <=? rwork)%Z ;;
    do _ <- mget T a 0 0 ;;
    do _ <- vget w 0 ;;
    do _ <- mget T vl 0 0 ;;
    do _ <- mget T vr 0 0 ;;
    do (da, w, dl, dr, work0, _) <- geev_ jobvl jobvr n (m_data a) lda w (m_data vl) ldvl (m_data vr) ldvr 10 (-1) rwork ;;
    let NB := 256%Z in
    do q <- to_int work0 ;;
    do q1 <- to_int (1 + q) ;;
    do bn <- to_int ((NB + 2) * n) ;;
    let lwork := Z.max q1 bn in
    do (da, w, dl, dr, _, info) <- geev_ jobvl jobvr n da lda w dl ldvl dr ldvr lwork lwork rwork ;;
    (* checkBlasStatus: src/Matrix.cpp:5-13 *)
    if negb (info =? 0)%Z then Throw else
    Ok (mkmat (m_nrow a) (m_ncol a) da, w, mkmat (m_nrow vl) (m_ncol vl) dl, mkmat (m_nrow vr) (m_ncol vr) dr).

  (** inverse: src/Matrix.h:601-622 (complex), 624-645 (real) *)
  Definition inverse (m : mat T) : res (mat T) :=
    let n := as_int (m_nrow m) in
    guard (0 <=? n)%Z ;;
    let ipiv := repeat 0%Z (Z.to_nat n) in
    do _ <- mget T m 0 0 ;;
    do _ <- vget ipiv 0 ;;
    do (a, ipiv, _) <- getrf n (m_data m) n ipiv ;;
    do (a, work0, _) <- getri n a n ipiv 2 (-1) ;;
    do lwork <- to_int work0 ;;
    do work <- to_int (lwork + 2) ;;
    guard (0 <? work)%Z ;;
    do (a, _, info) <- getri n a n ipiv work lwork ;;
    if negb (info =? 0)%Z then Throw else
    Ok (mkmat (m_nrow m) (m_ncol m) a).

  (** mycall: src/Svd.h:84-107 *)
  Definition mycall (name : string) :=
    if String.eqb name "gesdd" then gesxd true
    else if String.eqb name "gesvd" then gesxd false
    else fun _ _ _ _ _ _ _ _ _ _ _ _ _ _ => Throw.

  (** Svd::operator(): src/Svd.h:27-80; [name] is the argument of the constructor. The product with 2.0 is computed in
      doubles, exactly. What is printed is left out. *)
  Definition svd (name : string) (jobz : ascii) (a : mat T) (s : list R) (vt : mat T) : res (mat T * list R * mat T) :=
    let all := Ascii.eqb jobz "A" in
    if negb all && negb (Ascii.eqb jobz "S") then Throw else
    let m := as_int (m_nrow a) in
    let n := as_int (m_ncol a) in
    let lda := m in
    let min := (if m <? n then m else n)%Z in
    guard (0 <=? min)%Z ;;
    let s := vresize s (Z.to_nat min) c0 in
    let ldu := m in
    let ucol := if all then m else min in
    let u := mat_new T (Z.to_nat ldu) (Z.to_nat ucol) in
    let ldvt := if all then n else min in
    do vt <- mat_resize T vt (Z.to_nat ldvt) (Z.to_nat n) ;;
    do x1 <- to_int (5 * min) ;;
    do x2 <- to_int (x1 + 7) ;;
    do y1 <- to_int (2 * Z.max m n) ;;
    do y2 <- to_int (2 * min) ;;
    do y3 <- to_int (y1 + y2) ;;
    do y4 <- to_int (y3 + 1) ;;
    do lrwork <- to_int (2 * min * Z.max x2 y4) ;;
    do iwork <- to_int (8 * min) ;;
    do _ <- mget T a 0 0 ;;
    do _ <- vget s 0 ;;
    do _ <- mget T u 0 0 ;;
    do _ <- mget T vt 0 0 ;;
    do (da, s, du, dv, work0, info) <- mycall name jobz m n (m_data a) lda s (m_data u) ldu (m_data vt) ldvt 100 (-1) lrwork iwork ;;
    if negb (info =? 0)%Z then Throw else
    do q <- to_int work0 ;;
    do mn <- to_int (m + n) ;;
    do mn256 <- to_int (mn * 256) ;;
    do lwork <- to_int (q + mn256) ;;
    do work <- to_int (lwork + 10) ;;
    guard (0 <=? work)%Z ;;
    do (da, s, du, dv, _, info) <- mycall name jobz m n da lda s du ldu dv ldvt work lwork lrwork iwork ;;
    if (info <? 0)%Z then Throw else
    Ok (mkmat (m_nrow u) (m_ncol u) du, s, mkmat (m_nrow vt) (m_ncol vt) dv).
End Lap.
