(** Model of RungeKutta for vectors: src/RungeKutta.h:86-187. The numbers are those of a ring; [half] and [sixth] are the
    constants 0.5 and 1.0/6.0, and times are numbers of the same ring. The vector expressions are those of Vec_Model.v.
    The warning that checkNorm prints is not modelled, and neither is the variant for matrices. *)
From Coq Require Import Reals.
From Verif Require Import Prelude Ring Cplx Vec_Model.

Section Rk.
  Variable R : cring.
  Local Open Scope cring_scope.
  Variables half sixth : R.
  (** f_, h_: src/RungeKutta.h:178-179 *)
  Variable f : R -> list R -> list R.
  Variable h : R.

  (** The body of the loop: src/RungeKutta.h:119-136. The state is ti, yi, tmp and result; k1 to k4 are overwritten before
      they are read. *)
  Definition rk_step (s : R * list R * list R * list (list R)) : res (R * list R * list R * list (list R)) :=
    let '(ti, yi, tmp, result) := s in
    do k1 <- assign_scale R [] h (Other (f ti yi)) ;;
    do tmp <- assign_axpy R tmp (Other yi) half (Other k1) ;;
    do k2 <- assign_scale R [] h (Other (f (ti + h * half) tmp)) ;;
    do tmp <- assign_axpy R tmp (Other yi) half (Other k2) ;;
    do k3 <- assign_scale R [] h (Other (f (ti + h * half) tmp)) ;;
    do tmp <- assign_plus R tmp (Other yi) (Other k3) ;;
    do k4 <- assign_scale R [] h (Other (f (ti + h) tmp)) ;;
    do myresult <- forM (length yi) 0 (fun j r => do x <- vget yi j ;; vset r j x) (repeat c0 (length yi)) ;;
    let result := result ++ [myresult] in
    let ti := ti + h in
    do tmp <- assign_comb4 R tmp c1 (Other k1) (c1 + c1) (Other k2) (c1 + c1) (Other k3) c1 (Other k4) ;;
    do yi <- plus_eq_scaled R yi sixth (Other tmp) ;;
    Ok (ti, yi, tmp, result).

  (** solve: src/RungeKutta.h:108-138; [result] is what the vector already holds *)
  Definition solve (result : list (list R)) (t0 : R) (N : nat) (y0 : list R) : res (list (list R)) :=
    do (ti, yi, tmp, result) <- forM N 0 (fun _ s => rk_step s) (t0, y0, [], result) ;; Ok result.
End Rk.

(** solveEx for real numbers: src/RungeKutta.h:102-106; the conversion of a negative number is undefined *)
Definition solveEx (f : R -> list R -> list R) (h : R) (result : list (list R)) (t0 t : R) (y0 : list R) : res (list (list R)) :=
  let x := ((t - t0) / h)%R in
  guard (if Rle_dec 0 x then true else false) ;;
  solve Rring (1 / 2)%R (1 / 6)%R f h result t0 (Z.to_nat (Int_part x)) y0.
