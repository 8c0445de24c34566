(** Model of src/AkimaSpline.h over the real numbers: no rounding; [fabs] is the absolute value and 0.5 is
    1/2. A division by zero is [UB] (in floating point it would give an infinity or NaN). *)
From Coq Require Import Reals.
From Verif Require Import Prelude.
Local Open Scope R_scope.

Definition rdiv (a b : R) : res R := if Req_EM_T b 0 then UB else Ok (a / b).

(** AkimaStruct: src/AkimaSpline.h:14-16 *)
Record akima_struct := mkak { ak_x0 : R; ak_x1 : R; ak_a0 : R; ak_a1 : R; ak_a2 : R; ak_a3 : R }.
(** members: src/AkimaSpline.h:112-113 *)
Record akima := mkakima { ak_structs : list akima_struct; ak_interval : R * R }.

(** calculateD: src/AkimaSpline.h:93-103 *)
Definition calculateD (x s : list R) : res (list R) :=
  let k := length x in
  do d <- forR 2 (k + 1) (fun i d =>
    do s1 <- vget s (i - 1) ;; do s2 <- vget s (i - 2) ;; do x1 <- vget x (i - 1) ;; do x2 <- vget x (i - 2) ;;
    do q <- rdiv (s1 - s2) (x1 - x2) ;; vset d i q) (repeat 0 (k + 3)) ;;
  do d2 <- vget d 2 ;; do d3 <- vget d 3 ;; do d <- vset d 1 (2 * d2 - d3) ;;
  do d1 <- vget d 1 ;; do d2 <- vget d 2 ;; do d <- vset d 0 (2 * d1 - d2) ;;
  do dk <- vget d k ;; do dk1 <- vget d (k - 1) ;; do d <- vset d (k + 1) (2 * dk - dk1) ;;
  do dk1 <- vget d (k + 1) ;; do dk <- vget d k ;; vset d (k + 2) (2 * dk1 - dk).

(** calculateW: src/AkimaSpline.h:105-110 *)
Definition calculateW (d : list R) : res (list R) :=
  let n := (length d - 1)%nat in
  forR 0 n (fun i w => do d1 <- vget d (i + 1) ;; do d0 <- vget d i ;; vset w i (Rabs (d1 - d0))) (repeat 0 n).

(** calculateSprime: src/AkimaSpline.h:76-91 *)
Definition calculateSprime (x s : list R) : res (list R) :=
  do d <- calculateD x s ;;
  do w <- calculateW d ;;
  forR 0 (length x) (fun i sp =>
    do w0 <- vget w i ;; do w2 <- vget w (i + 2) ;; do d1 <- vget d (i + 1) ;; do d2 <- vget d (i + 2) ;;
    let denom := w0 + w2 in
    if Req_EM_T denom 0 then vset sp i ((d1 + d2) * (1 / 2))
    else do q <- rdiv (w2 * d1 + w0 * d2) denom ;; vset sp i q) (repeat 0 (length x)).

(** constructor: src/AkimaSpline.h:22-45 *)
Definition akima_new (x s : list R) : res akima :=
  if negb (length x =? length s)%nat then Throw
  else if (length x <? 3)%nat then Throw
  else
    do sp <- calculateSprime x s ;;
    do aks <- forR 0 (length x - 1) (fun i aks =>
      do x0 <- vget x i ;; do x1 <- vget x (i + 1) ;; do s0 <- vget s i ;; do s1 <- vget s (i + 1) ;;
      do p0 <- vget sp i ;; do p1 <- vget sp (i + 1) ;;
      let u := x1 - x0 in
      let ds := s1 - s0 in
      do a2 <- rdiv (3 * ds - (2 * p0 + p1) * u) (u * u) ;;
      do a3 <- rdiv ((p0 + p1) * u - 2 * ds) (u * u * u) ;;
      Ok (aks ++ [mkak x0 x1 s0 p0 a2 a3])) [] ;;
    let k := (length aks - 1)%nat in
    do first <- vget aks 0 ;; do last <- vget aks k ;;
    Ok (mkakima aks (ak_x0 first, ak_x1 last)).

(** functionFor: src/AkimaSpline.h:57-62 *)
Definition functionFor (ak : akima_struct) (x : R) : R :=
  let u := x - ak_x0 ak in ak_a0 ak + ak_a1 ak * u + ak_a2 ak * u * u + ak_a3 ak * u * u * u.

(** findRange: src/AkimaSpline.h:65-74 *)
Fixpoint findRange_loop (aks : list akima_struct) (i : nat) (x : R) : res nat :=
  match aks with
  | [] => Throw
  | ak :: aks' =>
    if Rle_dec (ak_x0 ak) x then (if Rle_dec x (ak_x1 ak) then Ok i else findRange_loop aks' (S i) x)
    else findRange_loop aks' (S i) x
  end.
Definition findRange (A : akima) (x : R) : res nat :=
  if Rlt_dec x (fst (ak_interval A)) then Throw
  else if Rlt_dec (snd (ak_interval A)) x then Throw
  else findRange_loop (ak_structs A) 0 x.

(** operator(): src/AkimaSpline.h:47-51 *)
Definition akima_eval (A : akima) (x : R) : res R :=
  do i <- findRange A x ;; do ak <- vget (ak_structs A) i ;; Ok (functionFor ak x).
