(** Model of TridiagonalMatrix::ground, the eigenvalues of a tridiagonal matrix without LAPACK: src/TridiagonalMatrix.h:186-258.
    Numbers are exact reals, except in the test (fabs(e) + dd) == dd for a negligible element, which is the parameter
    [tiny]: with exact numbers it is e = 0. A division by zero is [UB]. *)
From Coq Require Import Reals.
From Verif Require Import Prelude Ring Cplx Tri_Model.
Local Open Scope R_scope.

(** std::sort of numbers, as an insertion sort *)
Fixpoint insert_sorted (x : R) (l : list R) : list R :=
  match l with
  | [] => [x]
  | y :: l' => if Rle_dec x y then x :: l else y :: insert_sorted x l'
  end.
Fixpoint std_sort (l : list R) : list R := match l with [] => [] | x :: l' => insert_sorted x (std_sort l') end.

Section Ground.
  Variable tiny : R -> R -> bool.
  (** maxCounter: src/TridiagonalMatrix.h:193 *)
  Variable maxCounter : nat.

  (** for (m = l; m < n - 1; m++): src/TridiagonalMatrix.h:216-220; [k] steps are left *)
  Fixpoint find_m (k m : nat) (d e : list R) : res nat :=
    match k with
    | 0%nat => Ok m
    | S k' =>
      do x <- vget d m ;;
      do y <- vget d (m + 1) ;;
      let dd := Rabs x + Rabs y in
      do em <- vget e m ;;
      if tiny em dd then Ok m else find_m k' (m + 1) d e
    end.

  (** for (s = 1.0; i >= l; i--): src/TridiagonalMatrix.h:228-244; i = l + k - 1. The result tells if the loop was left by
      the break, and has the last p and g. *)
  Fixpoint chase (k l m : nat) (s c p g : R) (d e : list R) : res (bool * R * R * list R * list R) :=
    match k with
    | 0%nat => Ok (false, p, g, d, e)
    | S k' =>
      let i := (l + k')%nat in
      do ei <- vget e i ;;
      let f := s * ei in
      let h := c * ei in
      let r := sqrt (f * f + g * g) in
      do e <- vset e (i + 1) r ;;
      if Req_EM_T r 0 then
        do di <- vget d (i + 1) ;;
        do d <- vset d (i + 1) (di - p) ;;
        do e <- vset e m 0 ;;
        Ok (true, p, g, d, e)
      else
        let s := f / r in
        let c := g / r in
        do di1 <- vget d (i + 1) ;;
        let g := di1 - p in
        do di <- vget d i ;;
        let r := (di - g) * s + 2 * c * h in
        let p := s * r in
        do d <- vset d (i + 1) (g + p) ;;
        let g := c * r - h in
        chase k' l m s c p g d e
    end.

  (** if (m != l) { ... }: src/TridiagonalMatrix.h:222-251 *)
  Definition sweep (l m : nat) (d e : list R) : res (list R * list R) :=
    do dl1 <- vget d (l + 1) ;;
    do dl <- vget d l ;;
    do el <- vget e l ;;
    guard (if Req_EM_T (2 * el) 0 then false else true) ;;
    let g := (dl1 - dl) / (2 * el) in
    let r := sqrt (g * g + 1) in
    do dm <- vget d m ;;
    let q := g + (if Rle_dec 0 g then Rabs r else - Rabs r) in
    guard (if Req_EM_T q 0 then false else true) ;;
    let g := dm - dl + el / q in
    do (broke, p, g, d, e) <- chase (m - l) l m 1 1 0 g d e ;;
    if broke then Ok (d, e)
    else
      do dl <- vget d l ;;
      do d <- vset d l (dl - p) ;;
      do e <- vset e l g ;;
      do e <- vset e m 0 ;;
      Ok (d, e).

  (** do { ... } while (m != l): src/TridiagonalMatrix.h:206-253; the first argument bounds the number of steps *)
  Fixpoint do_loop (fuel n l intCounter : nat) (d e : list R) : res (nat * list R * list R) :=
    match fuel with
    | 0%nat => OutOfFuel
    | S fuel' =>
      let intCounter := (intCounter + 1)%nat in
      if (maxCounter <? intCounter)%nat then Ok (intCounter, d, e)
      else
        do m <- find_m (n - 1 - l) l d e ;;
        if (m =? l)%nat then Ok (intCounter, d, e)
        else
          do (d, e) <- sweep l m d e ;;
          do_loop fuel' n l intCounter d e
    end.

  (** ground: src/TridiagonalMatrix.h:186-258 with groundAllocations: 260-266 *)
  Definition ground (t : tri Rring) (nn : nat) : res (list R) :=
    guard ((nn <=? length (t_a t))%nat && (nn <=? length (t_b t))%nat) ;;
    let d := firstn nn (t_a t) in
    let e := firstn nn (t_b t) in
    do (intCounter, d, e) <- forM nn 0 (fun l (st : nat * list R * list R) =>
      let '(intCounter, d, e) := st in do_loop (maxCounter + 2) nn l intCounter d e) (0%nat, d, e) ;;
    let d := std_sort d in
    if (maxCounter <? intCounter)%nat then Throw else Ok d.
End Ground.
