(** Model of src/ContinuedFraction.h and src/ContinuedFractionCollection.h with exact numbers. A complex
    division by zero is [UB]. The diagonalisation of a real symmetric matrix (LAPACK) is the parameter [diag],
    which returns the eigenvectors as columns and the eigenvalues. Input and output are not modelled. *)
From Coq Require Import Reals.
From Verif Require Import Prelude Ring Cplx Dense_Model Tri_Model.
Local Open Scope R_scope.

(** src/PlotParams.h:34-52 *)
Record plotparams := mkpp { pp_omega1 : R; pp_omega2 : R; pp_deltaOmega : R; pp_delta : R; pp_beta : R; pp_matsubaras : nat }.

(** members: src/ContinuedFraction.h:239-246; cf_matsubara is freqEnum_ == FREQ_MATSUBARA *)
Record cfrac := mkcf { cf_matsubara : bool; cf_Eg : R; cf_weight : Cring; cf_isign : Z; cf_eigs : list R; cf_intensity : list R }.

Definition cdiv_checked (a b : Cring) : res Cring := if C_eq_dec b c0 then UB else Ok (Cdiv a b).

(** set: src/ContinuedFraction.h:134-142 with diagonalize: 219-232 *)
Definition cf_set (diag : mat Rring -> mat Rring * list R) (cf : cfrac) (ab : tri Rring) (Eg weight : R) (isign : Z) : res cfrac :=
  if ceqb (RtoC weight) c0 then Ok (mkcf (cf_matsubara cf) Eg (RtoC weight) isign (cf_eigs cf) (cf_intensity cf))
  else
    do T <- buildDenseMatrix Rring ab (mat_empty Rring) 0 ;;
    let '(Q, eigs) := diag T in
    do intensity <- forR 0 (m_nrow Q) (fun i v => do q <- mget Rring Q 0 i ;; vset v i (q * q)) (vresize (cf_intensity cf) (m_nrow Q) 0) ;;
    Ok (mkcf (cf_matsubara cf) Eg (RtoC weight) isign eigs intensity).

(** iOfOmega: src/ContinuedFraction.h:200-211 *)
Definition iOfOmega (cf : cfrac) (z : Cring) (offset : R) (isign : Z) : res Cring :=
  if ceqb (cf_weight cf) c0 then Ok c0
  else
    do sum <- forR 0 (length (cf_intensity cf)) (fun l sum =>
      do i <- vget (cf_intensity cf) l ;; do e <- vget (cf_eigs cf) l ;;
      do q <- cdiv_checked (RtoC i) (csub z (RtoC (IZR isign * (offset - e)))) ;;
      Ok (cadd sum q)) c0 ;;
    Ok (cmul sum (cf_weight cf)).

Definition plotdata := list (R * Cring).

(** the loop of plotReal: src/ContinuedFraction.h:162-170; the first argument bounds the number of steps *)
Fixpoint plotReal_loop (fuel : nat) (cf : cfrac) (pp : plotparams) (omega : R) (counter : nat) (result : plotdata) : res plotdata :=
  match fuel with
  | 0%nat => OutOfFuel
  | S fuel' =>
    if Rlt_dec omega (pp_omega2 pp) then
      do v <- iOfOmega cf (omega, pp_delta pp) (cf_Eg cf) (cf_isign cf) ;;
      do result <- vset result counter (omega, v) ;;
      if (length result <=? counter + 1)%nat then Ok result
      else plotReal_loop fuel' cf pp (omega + pp_deltaOmega pp) (counter + 1) result
    else Ok result
  end.
(** plotReal: src/ContinuedFraction.h:156-171; SizeType of a negative number or of a quotient by zero is [UB] *)
Definition plotReal (cf : cfrac) (result : plotdata) (pp : plotparams) : res plotdata :=
  if Req_EM_T (pp_deltaOmega pp) 0 then UB
  else
    let n := Int_part ((pp_omega2 pp - pp_omega1 pp) / pp_deltaOmega pp) in
    guard (0 <=? n)%Z ;;
    let result := if (length result =? 0)%nat then repeat (0, c0) (Z.to_nat n) else result in
    plotReal_loop (length result + 1) cf pp (pp_omega1 pp) 0 result.

(** matsubara: src/ContinuedFraction.h:234-237; M_PI is pi *)
Definition matsubara (ind : nat) (pp : plotparams) : R := (2 * INR ind + 1) * PI / pp_beta pp.

(** plotMatsubara: src/ContinuedFraction.h:173-192 *)
Fixpoint plotMatsubara_loop (todo : nat) (cf : cfrac) (pp : plotparams) (omegaIndex : nat) (result : plotdata) : res plotdata :=
  match todo with
  | 0%nat => Ok result
  | S todo' =>
    let z : Cring := (pp_delta pp, matsubara omegaIndex pp) in
    do v <- iOfOmega cf z (cf_Eg cf) (cf_isign cf) ;;
    do result <- vset result omegaIndex (snd z, v) ;;
    if (length result <=? omegaIndex + 1)%nat then Ok result
    else plotMatsubara_loop todo' cf pp (omegaIndex + 1) result
  end.
Definition plotMatsubara (cf : cfrac) (result : plotdata) (pp : plotparams) : res plotdata :=
  let result := if (length result =? 0)%nat then repeat (0, c0) (pp_matsubaras pp) else result in
  plotMatsubara_loop (pp_matsubaras pp) cf pp 0 result.

(** plot: src/ContinuedFraction.h:144-154 *)
Definition cf_plot (cf : cfrac) (result : plotdata) (pp : plotparams) : res plotdata :=
  if cf_matsubara cf || (0 <? pp_matsubaras pp)%nat then plotMatsubara cf result pp
  else plotReal cf result pp.

(** accumulate: src/ContinuedFractionCollection.h:108-135 *)
Definition accumulate (v1 v2 : plotdata) : res plotdata :=
  let wasEmpty := (length v1 =? 0)%nat in
  if negb wasEmpty && negb (length v1 =? length v2)%nat then Throw
  else
    let v1 := if wasEmpty then repeat (0, c0) (length v2) else v1 in
    forR 0 (length v1) (fun i v1 =>
      do p1 <- vget v1 i ;; do p2 <- vget v2 i ;;
      if wasEmpty then vset v1 i p2
      else if Rceqb (fst p1) (fst p2) then vset v1 i (fst p1, cadd (snd p1) (snd p2)) else Throw) v1.

(** plot: src/ContinuedFractionCollection.h:88-95 *)
Definition cfc_plot (data : list cfrac) (result : plotdata) (pp : plotparams) : res plotdata :=
  forL data (fun cf result => do result1 <- cf_plot cf [] pp ;; accumulate result result1) result.
