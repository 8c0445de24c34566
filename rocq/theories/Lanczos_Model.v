(** Model of the Lanczos decomposition: src/LanczosCore.h, src/LanczosVectors.h
    and the parts of src/LanczosSolver.h that follow it.

    Numbers are exact: reals are [R], vector elements are complex ([Cring]); for
    real matrices all imaginary parts are 0. The loops over all elements of a
    vector are written with [vec]; all those vectors have matsize elements,
    which is checked or ensured when they are made. The messages printed and the
    branches for lotaMemory = false (the constructor throws) are dropped. *)
From Coq Require Import Reals.
From Verif Require Import Prelude Ring Cplx Tri_Model.
Local Open Scope nat_scope.

Definition vector : Type := list Cring.

(** A vector built element by element; reading an element. *)
Definition vec (n : nat) (f : nat -> Cring) : vector := map f (seq 0 n).
Definition at_ (v : vector) (i : nat) : Cring := nth i v c0.

(** Sum of real(x[i] * conj(y[i])): src/LanczosCore.h:165-167, 189-192,
    src/LanczosVectors.h:209-212, 259-261. *)
Definition sum_re (n : nat) (x y : vector) : R :=
  @sumn Rring n (fun i => fst (cmul (at_ x i) (cconj (at_ y i)))).

(** x *= r: src/LanczosCore.h:170-171, 205-207, src/LanczosVectors.h:226-228, 264-265. *)
Definition scale (n : nat) (r : R) (x : vector) : vector :=
  vec n (fun i => cmul (at_ x i) (RtoC r)).

Section Lanczos.
  (** mat_.rows() and mat_.matrixVectorProduct(x, y), which does x += H y. *)
  Variable rows : nat.
  Variable mvp : vector -> vector -> vector.
  (** LAPACK's ?stedc_: the eigenvalues of the leading nn x nn block of the
      tridiagonal matrix (a, b), or failure. *)
  Variable stedc : nat -> list R -> list R -> option (list R).
  (** params_.tolerance, params_.minSteps, excitedForStop, isReorthoEnabled. *)
  Variable tolerance : R.
  Variable minSteps excitedForStop : nat.
  Variable isReortho : bool.

  (** src/TridiagonalMatrix.cpp:5-28 [diag2]: [eigs] gets all of [a_], its first
      [nn] elements replaced by the eigenvalues. *)
  Definition tri_diag (a b : list R) (nn : nat) : res (list R) :=
    match stedc nn a b with
    | None => Throw
    | Some ev => Ok (map (fun i => if i <? nn then nth i ev 0%R else nth i a 0%R) (seq 0 (length a)))
    end.

  (** src/LanczosVectors.h:238-266 [reorthoIfNecessary]. The stored vectors are
      the columns of [data]. A vector of norm 0 is multiplied by 1/0: all its
      elements become NaN, here [None]. *)
  Definition reortho (max_nstep : nat) (data : list vector) (V2 : vector) (iter : nat)
    : res (option vector) :=
    if negb isReortho then Ok (Some V2)
    else if max_nstep <=? iter then Throw
    else
      do V2 <- forM (iter + 1) 0 (fun i V2 =>
        do c <- vget data i ;;
        let rij := sumn rows (fun h => cmul (cconj (at_ c h)) (at_ V2 h)) in
        Ok (vec rows (fun h => csub (at_ V2 h) (cmul (at_ c h) rij)))) V2 ;;
      let ntmp := sum_re rows V2 V2 in
      if Req_EM_T ntmp 0 then Ok None else Ok (Some (scale rows (1 / sqrt ntmp) V2)).

  (** src/LanczosVectors.h:202-232 [oneStepDecomposition]: V2 and the new
      tridiagonal matrix. *)
  Definition oneStep (max_nstep : nat) (data : list vector) (V0 V1 : vector) (a b : list R) (iter : nat)
    : res (option vector * list R * list R) :=
    let V2 := mvp (vec rows (fun _ => c0)) V1 in
    let atmp := sum_re rows V2 V1 in
    do a <- vset a iter atmp ;;
    do ai <- vget a iter ;;
    do bi <- vget b iter ;;
    let V2 := vec rows (fun h => csub (csub (at_ V2 h) (cmul (RtoC ai) (at_ V1 h))) (cmul (RtoC bi) (at_ V0 h))) in
    let btmp := sqrt (sum_re rows V2 V2) in
    do b <- (if iter + 1 <? length a then vset b (iter + 1) btmp else Ok b) ;;
    let V2 := if Rlt_dec 0 btmp then scale rows (1 / btmp) V2 else V2 in
    do V2 <- reortho max_nstep data V2 iter ;;
    Ok (V2, a, b).

  (** src/LanczosCore.h:225-231: the largest change of the watched eigenvalues. *)
  Definition deltas (tmpEigs eold : list R) : res (list R * R) :=
    forM (Nat.min excitedForStop (length tmpEigs)) 0 (fun ii '(eold, deltaMax) =>
      do e <- vget tmpEigs ii ;;
      do o <- vget eold ii ;;
      let delta := Rabs (e - o) in
      do eold <- vset eold ii e ;;
      Ok (eold, if Rlt_dec deltaMax delta then delta else deltaMax)) (eold, 0%R).

  (** src/LanczosCore.h:217-249: the loop, with [n] iterations left. It returns
      the last j (max_nstep if the loop was not left by a break), the stored
      vectors, and the tridiagonal matrix. Storing a vector of NaN is [UB]
      here: nothing after it means anything. *)
  Fixpoint lanczos_loop (max_nstep n j : nat) (data : list vector) (V0 V1 : vector)
      (a b eold : list R) (exitFlag : bool) : res (nat * list vector * list R * list R) :=
    match n with
    | 0 => Ok (j, data, a, b)
    | S n' =>
      do (V2, a, b) <- oneStep max_nstep data V0 V1 a b j ;;
      do tmpEigs <- tri_diag a b (j + 1) ;;
      do (eold, deltaMax) <- deltas tmpEigs eold ;;
      let exitFlag := if Rlt_dec deltaMax tolerance then true else exitFlag in
      let exitFlag := if j =? max_nstep - 1 then true else exitFlag in
      if exitFlag && (rows <=? 4) then Ok (j, data, a, b)
      else if exitFlag && (minSteps <=? j) then Ok (j, data, a, b)
      else
        match V2 with
        | None => UB
        | Some V2 =>
          do data <- vset data (j + 1) V2 ;;
          lanczos_loop max_nstep n' (j + 1) data V1 V2 a b eold exitFlag
        end
    end.

  (** src/LanczosCore.h:147-272 [decomposition], on a new object: the stored
      vectors and the tridiagonal matrix. A zero start vector is divided by 0:
      every number after that is NaN, here [UB]. *)
  Definition decomposition (steps : nat) (initVector : vector) : res (list vector * tri Rring) :=
    if negb (length initVector =? rows) then Throw
    else
      let nrm := sum_re rows initVector initVector in
      guard (if Req_EM_T nrm 0 then false else true) ;;
      let V0 := scale rows (1 / sqrt nrm) initVector in
      let max_nstep := if rows <? steps then rows else steps in
      do ab <- tri_resize_val Rring (tri_new Rring) max_nstep 0%R ;;
      let data := repeat (vec rows (fun _ => c0)) max_nstep in
      do b <- vset (t_b ab) 0 0%R ;;
      do data <- vset data 0 V0 ;;
      let V1 := mvp (vec rows (fun _ => c0)) V0 in
      let atmp := sum_re rows V1 V0 in
      do a <- vset (t_a ab) 0 atmp ;;
      let V1 := vec rows (fun i => csub (at_ V1 i) (cmul (RtoC atmp) (at_ V0 i))) in
      let btmp := sqrt (sum_re rows V1 V1) in
      do b <- vset b 1 btmp ;;
      let V1 := if Rlt_dec 0 btmp then scale rows (1 / btmp) V1 else V1 in
      do data <- (if 1 <? max_nstep then vset data 1 V1 else Ok data) ;;
      do (j, data, a, b) <- lanczos_loop max_nstep (max_nstep - 1) 1 data V0 V1 a b
                              (repeat 0%R max_nstep) false ;;
      if j <? max_nstep then
        do ab <- tri_resize Rring (@mktri Rring a b) (j + 1) ;;
        Ok (vresize data (j + 1) (vec rows (fun _ => c0)), ab)
      else Ok (vresize data max_nstep (vec rows (fun _ => c0)), @mktri Rring a b).

  (** src/LanczosVectors.h:191-200 [excitedVector]: z += V ritz(:,excited), with
      [s] the column of [ritz]. *)
  Definition excitedVector (data : list vector) (s : list Cring) (z : vector) : res vector :=
    forM (length data) 0 (fun j z =>
      do ctmp <- vget s j ;;
      do c <- vget data j ;;
      forM rows 0 (fun i z =>
        do x <- vget z i ;;
        do d <- vget c i ;;
        vset z i (cadd x (cmul ctmp d))) z) z.

  (** diag(ritz, eigs, 'V') of the dense form of the tridiagonal matrix (LAPACK):
      the eigenvalues and the columns of the matrix of eigenvectors. *)
  Variable diagV : tri Rring -> option (list R * list (list Cring)).

  (** src/LanczosSolver.h:36-70 [computeOneState]; [decomposition] is called with
      excitedForStop = excited (see [computeOneState] below, outside the section);
      the result is the energy and z. *)
  Definition one_state (steps : nat) (z init : vector) (excited : nat) : res (R * vector) :=
    do (V, ab) <- decomposition steps init ;;
    match diagV ab with
    | None => Throw
    | Some (eigs, ritz) =>
      do energy <- vget eigs excited ;;
      do s <- vget ritz excited ;;
      do z <- excitedVector V s z ;;
      if Rlt_dec (sqrt (sum_re rows z z)) (1 / 1000000) then Throw else Ok (energy, z)
    end.
End Lanczos.

(** src/LanczosSolver.h:36-70 [computeOneState]. *)
Definition computeOneState rows mvp stedc diagV tolerance minSteps isReortho steps (z init : vector) (excited : nat) : res (R * vector) :=
  one_state rows mvp stedc tolerance minSteps excited isReortho diagV steps z init excited.

(** src/LanczosSolver.h:72-91 [computeAllStatesBelow]: [zs] is z on entry, the
    result is eigs and z. *)
Definition computeAllStatesBelow rows mvp stedc (diagV : tri Rring -> option (list R * list (list Cring)))
    tolerance minSteps isReortho steps (zs : list vector) (init : vector) (excited : nat) : res (list R * list vector) :=
  do (V, ab) <- decomposition rows mvp stedc tolerance minSteps excited isReortho steps init ;;
  if length (t_a ab) <? excited then Throw else
  match diagV ab with
  | None => Throw
  | Some (eigs, ritz) =>
    let n := if excited + 1 <? length zs then excited + 1 else length zs in
    do zs' <- forM n 0 (fun i zs =>
      do s <- vget ritz i ;;
      do z <- vget zs i ;;
      do z' <- excitedVector rows V s z ;;
      vset zs i z') zs ;;
    Ok (eigs, zs')
  end.
