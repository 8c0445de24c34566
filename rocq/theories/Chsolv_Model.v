(** Model of src/ChebyshevSolver.h: one step of the recurrence of Chebyshev vectors, and the decomposition that
    collects the moments. Numbers are exact as in Lanczos_Model. The computation of ground states is not implemented in
    the class (it throws) and not modelled. The scaling of the spectrum takes the energies that the two Lanczos solvers
    report as arguments. *)
From Coq Require Import Reals.
From Verif Require Import Prelude Ring Cplx Tri_Model Lanczos_Model.
Local Open Scope nat_scope.

Section Chsolv.
  (** mat_.rows(), mat_.matrixVectorProduct(x, y), which does x += H y, params_.b and params_.oneOverA *)
  Variable rows : nat.
  Variable mvp : vector -> vector -> vector.
  Variable b oneOverA : R.

  (** oneStepDec: src/ChebyshevSolver.h:205-233. The new x, y, atmp and btmp. Vectors of another size than the matrix are
      [UB] here. *)
  Definition oneStepDec (x y : vector) (jind : nat) : res (vector * vector * R * R) :=
    guard ((length x =? rows) && (length y =? rows)) ;;
    let isFirst := jind =? 0 in
    let z := mvp (vec rows (fun _ => c0)) y in
    let z := vec rows (fun i => csub (at_ z i) (cmul (RtoC b) (at_ y i))) in
    let z := scale rows oneOverA z in
    let val := if isFirst then 1%R else 2%R in
    let atmp := sum_re rows y y in
    let '(x, y) := (y, vec rows (fun i => csub (cmul (RtoC val) (at_ z i)) (at_ x i))) in
    let btmp := sum_re rows y x in
    Ok (x, y, atmp, btmp).

  (** decomposition: src/ChebyshevSolver.h:177-202, with prepareMemory, saveVector, cols: src/LanczosVectors.h:141-178.
      [data] is what data_ of lanczosVectors_ points to, [None] for the null pointer; the constructor
      (src/LanczosVectors.h:114-131) sets it to null, and only prepareMemory allocates. The loop stores the columns it
      passes. *)
  Definition ch_decomposition (steps : nat) (data : option (list vector)) (initVector : vector) (ab : tri Rring)
    : res (list vector * tri Rring) :=
    let x := vec (length initVector) (fun _ => c0) in
    let y := initVector in
    do cols <- (match data with None => UB | Some V => Ok (length V) end) ;;
    let V := repeat (vec (length y) (fun _ => c0)) cols in
    do ab <- tri_resize_val Rring ab (2 * steps) 0%R ;;
    do (x, y, V, ab) <- forM cols 0 (fun j (st : vector * vector * list vector * tri Rring) =>
      let '(x, y, V, ab) := st in
      do V <- vset V j y ;;
      do (x, y, atmp, btmp) <- oneStepDec x y j ;;
      do a0 <- vget (t_a ab) 0 ;;
      do a <- vset (t_a ab) j (2 * atmp - a0 : R)%R ;;
      do b0 <- vget (t_b ab) 0 ;;
      do b <- vset (t_b ab) j (2 * btmp - b0)%R ;;
      Ok (x, y, V, @mktri Rring a b)) (x, y, V, ab) ;;
    Ok (V, ab).
End Chsolv.

(** InternalMatrix::matrixVectorProduct: src/ChebyshevSolver.h:293-300 *)
Definition im_mvp (rows : nat) (mvp : vector -> vector -> vector) (x y : vector) : vector :=
  mvp x (vec rows (fun i => copp (at_ y i))).

(** computeAandB: src/ChebyshevSolver.h:333-347, where [e2] is the energy the first Lanczos solver finds for the negated
    matrix and [e] the one the second finds for the matrix; the result is b and oneOverA. *)
Definition computeAandB (e2 e : R) : res (R * R) :=
  let eMax := (- e2)%R in
  let eMax := (eMax * 3)%R in
  let eMin := (e * 3)%R in
  guard (if Rlt_dec (/ 100) (eMax - eMin) then true else false) ;;
  Ok (((eMax + eMin) / 2)%R, (2 / (eMax - eMin))%R).
