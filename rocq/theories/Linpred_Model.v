(** Model of src/LinearPrediction.h: extrapolation of a series.

    [F] is the type of the data ([FieldType]), [K] that of the complex numbers
    the roots are. Exact arithmetic. A matrix p x p is kept as in
    src/Matrix.h: column by column, element (l,j) at l + j*p. Indices are
    [SizeType]; [i - l - 1] below zero wraps to a huge index, which is out of
    range ([sub1]). *)
From Verif Require Import Prelude Ring.
Local Open Scope nat_scope.

Section LinPred.
  Variables F K : cring.
  (** LAPACK GETRF and GETRI followed by BLAS GEMV, src/LinearPrediction.h:217-234:
      what is left in [d_] for a p x p matrix and a vector of size p. Its [info]
      is not looked at by the code. *)
  Variable lapack_solve : nat -> list F -> list F -> list F.
  (** gsl_poly_complex_solve with the loop at src/LinearPrediction.h:174-176: the
      complex roots of the polynomial with these coefficients (constant term
      first); [None] when compiled without USE_GSL. *)
  Variable gsl_roots : option (list F -> list K).
  (** [abs(z) > 1.0]. *)
  Variable outside : K -> bool.
  (** [PsimagLite::real]. *)
  Variable re : K -> F.

  (** y_[i - l - 1], src/LinearPrediction.h:145, 204, 244, 255. *)
  Definition sub1 (y : list F) (i l : nat) : res F :=
    if i <=? l then UB else vget y (i - l - 1).

  (** src/LinearPrediction.h:237-247 [computeA]. *)
  Definition computeA (y : list F) (p n : nat) : res (list F) :=
    forM p 0 (fun l A =>
      forM p 0 (fun j A =>
        do A <- vset A (l + j * p) c0 ;;
        forR n (2 * n) (fun i A =>
          do a <- vget A (l + j * p) ;;
          do u <- sub1 y i l ;;
          do v <- sub1 y i j ;;
          vset A (l + j * p) (cadd a (cmul u v))) A) A) (repeat c0 (p * p)).

  (** src/LinearPrediction.h:249-257 [computeB]. *)
  Definition computeB (y : list F) (p n : nat) : res (list F) :=
    forM p 0 (fun l B =>
      do B <- vset B l c0 ;;
      forR n (2 * n) (fun i B =>
        do b <- vget B l ;;
        do u <- sub1 y i l ;;
        do v <- vget y i ;;
        vset B l (cadd b (cmul u v))) B) (repeat c0 p).

  (** src/LinearPrediction.h:214-235 [computeD]: [&(A(0,0))] and [&(ipiv[0])] with
      p = 0 are out of range. *)
  Definition computeD (p : nat) (A B : list F) : res (list F) :=
    guard (0 <? p) ;; Ok (lapack_solve p A B).

  (** src/LinearPrediction.h:123-137 [linearPredictionfunction(y, p)] on an object
      whose data are [y_]: the new [d_]. *)
  Definition refit (y_ y : list F) (p : nat) : res (list F) :=
    if Nat.odd (length y) then Throw
    else
      let n := length y / 2 in
      do A <- computeA y_ p n ;;
      do B <- computeB y_ p n ;;
      computeD p A B.

  (** src/LinearPrediction.h:104-119: the constructor; the object is (y_, d_). *)
  Definition ctor (y : list F) (p : nat) : res (list F * list F) :=
    do d <- refit y y p ;; Ok (y, d).

  (** One predicted value: src/LinearPrediction.h:143-146 and 202-205. *)
  Definition next (d : list F) (nd : list F) (y : list F) (i : nat) : res F :=
    forM (length d) 0 (fun j sum =>
      do c <- vget nd j ;;
      do v <- sub1 y i j ;;
      Ok (cadd sum (cmul c v))) c0.

  (** src/LinearPrediction.h:139-149 [predict]: the new [y_]. *)
  Definition predict (y d : list F) (p : nat) : res (list F) :=
    let n := length y in
    forR n (n + p) (fun i y =>
      do s <- next d d y i ;;
      Ok (y ++ [s])) y.

  (** src/LinearPrediction.h:161-164: the characteristic polynomial. *)
  Definition char_poly (d : list F) (p : nat) : res (list F) :=
    do aa <- vset (repeat c0 (p + 1)) p c1 ;;
    forM p 0 (fun j aa =>
      do x <- vget d (p - 1 - j) ;;
      vset aa j (copp x)) aa.

  (** src/LinearPrediction.h:178-184. *)
  Definition fix_roots (roots : list K) : list K :=
    map (fun r => if outside r then c0 else r) roots.

  (** src/LinearPrediction.h:185-194: the coefficients from the roots. *)
  Definition from_roots (p : nat) (roots : list K) : res (list K) :=
    do r0 <- vget roots 0 ;;
    do ab <- vset (repeat c0 (p + 1)) 0 (copp r0) ;;
    do ab <- vset ab 1 c1 ;;
    forR 1 p (fun j ab =>
      do r <- vget roots j ;;
      do ab <- vset ab (j + 1) c1 ;;
      do ab <- forM j 0 (fun t ab =>
        let i := j - t in
        do x <- vget ab (i - 1) ;;
        do z <- vget ab i ;;
        vset ab i (csub x (cmul r z))) ab ;;
      do z <- vget ab 0 ;;
      vset ab 0 (cmul (copp r) z)) ab.

  (** src/LinearPrediction.h:195-197. *)
  Definition new_d (p : nat) (ab : list K) : res (list F) :=
    forM p 0 (fun j nd =>
      do z <- vget ab j ;;
      vset nd (p - 1 - j) (copp (re z))) (repeat c0 p).

  (** src/LinearPrediction.h:151-208 [predict2]: the new [y_]. *)
  Definition predict2 (y d : list F) (p : nat) : res (list F) :=
    do aa <- char_poly d p ;;
    match gsl_roots with
    | None => Throw
    | Some solve =>
      let roots := fix_roots (solve aa) in
      do ab <- from_roots p roots ;;
      do nd <- new_d p ab ;;
      let n := length y in
      forR n (n + p) (fun i y =>
        do s <- next d nd y i ;;
        vset y i s) (vresize y (n + p) c0)
    end.
End LinPred.
