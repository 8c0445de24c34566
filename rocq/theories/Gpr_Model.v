(** Model of the printing of geometries: src/Geometry/GeometryTerm.h and src/Geometry/GeometryDirection.h.
    [show] is what operator<< prints for a number, [showM] what it prints for a matrix. *)
From Coq Require Import Ascii String.
From Verif Require Import Prelude Str_Model Text_Model.
Import List.

Section Gpr.
  Variable K : Type.
  Variable show : K -> str.
  Variable M : Type.
  Variable showM : M -> str.

  (** GeometryTerm::print: src/Geometry/GeometryTerm.h:398-421. [orbitals] is orbitals(site), [connected] and [value] are the
      functions of the term. *)
  Definition term_print (linSize : nat) (orbitals : nat -> res nat) (connected : nat -> nat -> res bool)
      (value : nat -> nat -> nat -> nat -> res K) (os : str) : res str :=
    forM linSize 0 (fun i os =>
      do dofsi <- orbitals i ;;
      forM dofsi 0 (fun dof1 os =>
        do os <- forM linSize 0 (fun j os =>
          do dofsj <- orbitals j ;;
          forM dofsj 0 (fun dof2 os =>
            do c <- connected i j ;;
            if negb c then Ok (os ++ lit "0" ++ lit " ") else
            do v <- value i dof1 j dof2 ;;
            Ok (os ++ show v ++ lit " ")) os) os ;;
        Ok (os ++ nl)) os) (os ++ lit "#orbital changes first" ++ nl).

  (** Auxiliary and the numbers of a direction: src/Geometry/GeometryDirection.h:94-122, 265-267. [M] are the matrices *)
  Record gdirp := mkgdirp { gp_constant : bool; gp_id : nat; gp_specific : bool; gp_orbitals : nat; gp_numbers : list K; gp_matrices : list M }.

  (** operator<< for a direction and for its auxiliary part: src/Geometry/GeometryDirection.h:220-253 *)
  Definition direction_print (gd : gdirp) (os : str) : res str :=
    let os := os ++ lit "#GeometryDirectionAuxiliary" ++ nl in
    let os := os ++ lit "constantValues=" ++ lit (if gp_constant gd then "1" else "0") ++ nl in
    let os := os ++ lit "dirId=" ++ print_nat (gp_id gd) ++ nl in
    let os := os ++ lit "edof=" ++ lit (if gp_specific gd then "1" else "0") ++ nl in
    let isMatrix := ((1 <? gp_orbitals gd) || gp_specific gd)%bool in
    if negb isMatrix then
    let os := os ++ lit "#GeometryNumbersSize=" ++ print_nat (List.length (gp_numbers gd)) ++ nl in
    let os := os ++ lit "#GeometryNumbers=" in
    do os <- forM (List.length (gp_numbers gd)) 0 (fun i os =>
      do x <- vget (gp_numbers gd) i ;; Ok (os ++ show x ++ lit " ")) os ;;
    Ok (os ++ nl)
    else
    let os := os ++ lit "#GeometryMatrixSize=" ++ print_nat (List.length (gp_matrices gd)) ++ nl in
    forM (List.length (gp_matrices gd)) 0 (fun i os => do x <- vget (gp_matrices gd) i ;; Ok (os ++ showM x)) os.
End Gpr.
