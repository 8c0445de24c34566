(** Model of the writing and reading of continued fractions: src/ContinuedFraction.h and src/ContinuedFractionCollection.h, with
    src/TridiagonalMatrix.h, to files of src/Io/IoSimple.h ([Simple_Model]), on one process. Real numbers are a type [K], of which
    [prK] is what operator<< writes with the precision 12, and [rdK] is operator>>; [W], [prW], [rdW] are the same for complex
    numbers. *)
From Coq Require Import Ascii String.
From Verif Require Import Prelude Str_Model Text_Model Simple_Model.
Import List.
Local Open Scope Z_scope.

Section Cfio.
  Variables (K W : Type) (prK : K -> str) (prW : W -> str).
  Variable rdK : istream -> K -> K * istream.
  Variable rdW : istream -> W -> W * istream.
  (** the value of a variable that was not given one, and of the elements that resize makes *)
  Variables (junk zero : K) (w0 : W).
  (** real(weight_) == 0 && imag(weight_) == 0; and the eigenvalues and intensities of the tridiagonal matrix (LAPACK) *)
  Variable isZero : W -> bool.
  Variable eigen : list K -> list K -> res (list K * list K).

  (** members: src/ContinuedFraction.h:239-246, with those of ab_: src/TridiagonalMatrix.h:270-271 *)
  Record cfs := mkcfs { s_matsubara : bool; s_a : list K; s_b : list K; s_weight : W; s_Eg : K; s_isign : Z; s_eigs : list K; s_intensity : list K }.

  (** write: src/ContinuedFraction.h:116-132, with TridiagonalMatrix::write: src/TridiagonalMatrix.h:106-111. The first argument is
      what was written before. *)
  Definition cf_write (out : str) (cf : cfs) : str :=
    let out := write_other out (vec_write prK (s_a cf)) (lit "#Avector") in
    let out := write_other out (vec_write prK (s_b cf)) (lit "#Bvector") in
    let f := if s_matsubara cf then lit "Matsubara" else lit "Real" in
    let out := write_other out (lit " ") (lit "#FreqEnum=" ++ f) in
    let out := write_scalar out (prW (s_weight cf)) (lit "#CFWeight") in
    let out := write_scalar out (prK (s_Eg cf)) (lit "#CFEnergy") in
    let out := write_scalar out (print_Z (s_isign cf)) (lit "#CFIsign") in
    let out := write_other out (vec_write prK (s_eigs cf)) (lit "#CFEigs") in
    write_other out (vec_write prK (s_intensity cf)) (lit "#CFIntensities").

  (** diagonalize: src/ContinuedFraction.h:219-232 *)
  Definition cf_diagonalize (cf : cfs) : res cfs :=
    if isZero (s_weight cf) then Ok cf else
    do (e, i) <- eigen (s_a cf) (s_b cf) ;;
    Ok (mkcfs (s_matsubara cf) (s_a cf) (s_b cf) (s_weight cf) (s_Eg cf) (s_isign cf) e i).

  (** the constructor that reads: src/ContinuedFraction.h:81-106, with TridiagonalMatrix(io): src/TridiagonalMatrix.h:99-104. The
      variable of the size in IoSimple::In::read and the elements have no value before. *)
  Definition cf_read (f : fin) : res (cfs * fin) :=
    do (a, _, f) <- read_vector zero junk (lift_rd rdK) 0 f [] (lit "#Avector") 0 ;;
    do (b, _, f) <- read_vector zero junk (lift_rd rdK) 0 f [] (lit "#Bvector") 0 ;;
    do (fr, f) <- match readline rd_str f [] (lit "#FreqEnum=") 0 with
                  | Ok (fr, _, f) => Ok (fr, f)
                  | Throw => Ok (lit "Real", rewind f)
                  | UB => UB
                  | OutOfFuel => OutOfFuel
                  end ;;
    let matsubara := str_eqb fr (lit "Matsubara") in
    do (weight, _, f) <- readline rdW f w0 (lit "#CFWeight=") 0 ;;
    do (Eg, _, f) <- readline rdK f junk (lit "#CFEnergy=") 0 ;;
    do (isign, _, f) <- readline rd_int f 0 (lit "#CFIsign=") 0 ;;
    do (eigs, _, f) <- read_vector zero junk (lift_rd rdK) 0 f [] (lit "#CFEigs") 0 ;;
    do (intensity, _, f) <- read_vector zero junk (lift_rd rdK) 0 f [] (lit "#CFIntensities") 0 ;;
    do cf <- cf_diagonalize (mkcfs matsubara a b weight Eg isign eigs intensity) ;;
    Ok (cf, f).

  (** ContinuedFractionCollection::write: src/ContinuedFractionCollection.h:78-84 *)
  Definition cfc_write (out : str) (l : list cfs) : str :=
    let out := write_scalar out (print_nat (List.length l)) (lit "#CONTINUEDFRACTIONCOLLECTION") in
    fold_left (fun out cf => cf_write out cf) l out.

  (** the constructor that reads: src/ContinuedFractionCollection.h:59-76. The result is data_, freqEnum_ and the file. *)
  Definition cfc_read (f : fin) (level : Z) : res (list cfs * bool * fin) :=
    do (n, _, f) <- readline rd_int f 0 (lit "#CONTINUEDFRACTIONCOLLECTION=") level ;;
    if n <=? 0 then Throw else
    forM (Z.to_nat n) 0 (fun _ '(data, freq, f) =>
      do (cf, f) <- cf_read f ;;
      Ok (data ++ [cf], s_matsubara cf, f)) ([], false, f).
End Cfio.
