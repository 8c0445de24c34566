(** Model of src/ChebyshevSerializer.h: the spectral function from the Chebyshev moments. Numbers are exact. Writing and
    the constructor that reads from a file are not modelled (that constructor assigns to elements of an empty
    TridiagonalMatrix). *)
From Coq Require Import Reals.
From Verif Require Import Prelude Ring Cplx Tri_Model Cheb_Model Cf_Model.
Local Open Scope R_scope.

(** KernelPolynomialParameters: src/ChebyshevSerializer.h:51-68 *)
Inductive kernel := JACKSON | LORENTZ | DIRICHLET.
Record kernelparams := mkkp { kp_type : kernel; kp_cutoff : nat; kp_lambda : R }.

(** the members moments_ and params_ (Eg, oneOverA, b): src/ChebyshevSerializer.h:90-96, 234-237 *)
Record chser := mkchser { cs_moments : tri Rring; cs_Eg : R; cs_oneOverA : R; cs_b : R }.

(** initKernelJackson: src/ChebyshevSerializer.h:214-222; 1.0/tan(x) is written cos(x)/sin(x) *)
Definition initKernelJackson (gn : list R) : res (list R) :=
  let nPlus1 := INR (length gn + 1) in
  let cot1 := cos (PI / nPlus1) / sin (PI / nPlus1) in
  forR 0 (length gn) (fun i gn =>
    let g := (nPlus1 - INR i) * cos (PI * INR i / nPlus1) + sin (PI * INR i / nPlus1) * cot1 in
    vset gn i (g / nPlus1)) gn.

(** initKernelLorentz: src/ChebyshevSerializer.h:224-231; for lambda = 0 all numbers are NaN, here [UB] *)
Definition initKernelLorentz (gn : list R) (lambda : R) : res (list R) :=
  let nreal := INR (length gn) in
  if Req_EM_T lambda 0 then UB
  else forR 0 (length gn) (fun i gn => vset gn i (sinh (lambda * (1 - INR i / nreal)) / sinh lambda)) gn.

(** initKernel: src/ChebyshevSerializer.h:197-212 *)
Definition initKernel (gn : list R) (kp : kernelparams) : res (list R) :=
  match kp_type kp with
  | JACKSON => initKernelJackson gn
  | LORENTZ => initKernelLorentz gn (kp_lambda kp)
  | DIRICHLET => Ok gn
  end.

(** computeGnMuN: src/ChebyshevSerializer.h:188-195 *)
Definition computeGnMuN (moments : tri Rring) (gnmn gn : list R) : res (list R) :=
  forR 0 (length gnmn) (fun i gnmn =>
    let j := (if Nat.odd i then (i - 1) / 2 else i / 2)%nat in
    do tmp <- (if Nat.odd i then vget (t_b moments) j else vget (t_a moments) j) ;;
    do g <- vget gn i ;;
    vset gnmn i (tmp * g)) gnmn.

(** calcF: src/ChebyshevSerializer.h:180-186; chebyshev_ is the function of Cheb_Model *)
Definition calcF (x : R) (gnmn : list R) : res R :=
  do g0 <- vget gnmn 0 ;;
  do sum <- forR 1 (length gnmn) (fun i sum =>
    do g <- vget gnmn i ;;
    do t <- cheb Rring (i + 1) (Z.of_nat i) x ;;
    Ok (sum + g * t)) (1 / 2 * g0) ;;
  Ok (2 * sum).

(** the loop of plot: src/ChebyshevSerializer.h:149-161; the first argument bounds the number of steps *)
Fixpoint ch_plot_loop (fuel : nat) (cs : chser) (pp : plotparams) (gnmun : list R) (omega : R) (counter : nat) (result : list (R * R)) : res (list (R * R)) :=
  match fuel with
  | 0%nat => OutOfFuel
  | S fuel' =>
    if Rlt_dec omega (pp_omega2 pp) then
      let x := (omega + cs_Eg cs - cs_b cs) * cs_oneOverA cs in
      let den := if Rlt_dec 1 x then 0 else if Rlt_dec x (-1) then 0 else sqrt (1 - x * x) in
      do tmp <- (if Rlt_dec (1 / 1000000) (Rabs den) then do f <- calcF x gnmun ;; Ok (f / den) else Ok 0) ;;
      do result <- vset result counter (omega, tmp) ;;
      if (length result <=? counter + 1)%nat then Ok result
      else ch_plot_loop fuel' cs pp gnmun (omega + pp_deltaOmega pp) (counter + 1) result
    else Ok result
  end.

(** plot: src/ChebyshevSerializer.h:132-162; gn[0] and gn[5] are read for a message *)
Definition ch_plot (cs : chser) (result : list (R * R)) (pp : plotparams) (kp : kernelparams) : res (list (R * R)) :=
  let size := tri_size Rring (cs_moments cs) in
  let cutoff := if (kp_cutoff kp =? 0)%nat || (size <? kp_cutoff kp)%nat then size else kp_cutoff kp in
  do gn <- initKernel (repeat 1 cutoff) kp ;;
  do gnmun <- computeGnMuN (cs_moments cs) (repeat 0 (length gn)) gn ;;
  if Req_EM_T (pp_deltaOmega pp) 0 then UB
  else
    let n := Int_part ((pp_omega2 pp - pp_omega1 pp) / pp_deltaOmega pp) in
    guard (0 <=? n)%Z ;;
    let result := if (length result =? 0)%nat then repeat (0, 0) (Z.to_nat n) else result in
    do m0 <- vget gn 0 ;;
    do m5 <- vget gn 5 ;;
    ch_plot_loop (length result + 1) cs pp gnmun (pp_omega1 pp) 0 result.
