(** Model of src/GemmR.h: the blocked matrix product.

    Sizes and leading dimensions are [nat]: negative [int] arguments are not
    modelled. Products and sums the code computes in [int] are guarded: a value
    of 2^31 or more is [UB], as signed overflow is in C++. Elements are those
    of a [cring] (exact arithmetic). [idebug_] only prints and is dropped. *)
From Verif Require Import Prelude Ring Parallel_Model.
From Coq Require Import Ascii.
Local Open Scope nat_scope.

(** The result of an [int] operation is representable. *)
Definition int_ok (x : nat) : bool := (Z.of_nat x <? 2147483648)%Z.

(** src/GemmR.h:55-61, and what BLAS accepts as flags. *)
Definition flagT (c : ascii) : bool := Ascii.eqb c "T" || Ascii.eqb c "t".
Definition flagC (c : ascii) : bool := Ascii.eqb c "C" || Ascii.eqb c "c".
Definition flagN (c : ascii) : bool := Ascii.eqb c "N" || Ascii.eqb c "n".
Definition is_notrans (c : ascii) : bool := negb (flagT c) && negb (flagC c).

(** Apply [f] to the elements of a list in order. *)
Fixpoint traverse {A B} (f : A -> res B) (l : list A) : res (list B) :=
  match l with
  | [] => Ok []
  | a :: l' => do b <- f a ;; do bs <- traverse f l' ;; Ok (b :: bs)
  end.

Section Gemm.
  Variable R : cring.

  (** A write to the array C: at address [fst], the scalar product [snd]. *)
  Definition update : Type := (nat * R)%type.

  (** The element (i,l) of op(X), read from memory. *)
  Definition read_op (t : ascii) (X : list R) (p ld i l : nat) : res R :=
    if flagN t then vget X (p + i + l * ld)
    else do a <- vget X (p + l + i * ld) ;; Ok (if flagC t then cconj a else a).

  (** [psimag::BLAS::GEMM], src/BLAS.h, which calls the Fortran [?gemm_] of the
      reference BLAS: C := alpha op(A) op(B) + beta C. Wrong flags or leading
      dimensions stop the program (here [Throw]). [pA], [pB], [pC] are the
      offsets of the pointers passed, [lenC] the number of elements of C. The
      result is the list of writes; each write is one atomic
      C[p] := alpha s + beta C[p] (see [write]), whereas BLAS may write an
      element several times. A and B are not read when alpha is 0. *)
  Definition gemm (tA tB : ascii) (m n k : nat) (alpha : R)
      (A : list R) (pA ldA : nat) (B : list R) (pB ldB : nat) (lenC pC ldC : nat)
    : res (list update) :=
    if negb (flagN tA || flagT tA || flagC tA) then Throw
    else if negb (flagN tB || flagT tB || flagC tB) then Throw
    else if ldA <? Nat.max 1 (if flagN tA then m else k) then Throw
    else if ldB <? Nat.max 1 (if flagN tB then k else n) then Throw
    else if ldC <? Nat.max 1 m then Throw
    else
      traverse (fun '(i, j) =>
        do s <- (if ceqb alpha c0 then Ok c0
                 else forM k 0 (fun l s =>
                   do a <- read_op tA A pA ldA i l ;;
                   do b <- read_op tB B pB ldB l j ;;
                   Ok (cadd s (cmul a b))) c0) ;;
        guard (pC + i + j * ldC <? lenC) ;;
        Ok (pC + i + j * ldC, s))
      (flat_map (fun j => map (fun i => (i, j)) (seq 0 m)) (seq 0 n)).

  (** The effect of one write. *)
  Definition write (alpha beta : R) (C : list R) (u : update) : list R :=
    upd C (fst u) (cadd (cmul alpha (snd u)) (cmul beta (nth (fst u) C c0))).
End Gemm.

(** src/GemmR.h:48-53: number of blocks and block size along one dimension
    ([m % nblocks] with no block is a division by zero). *)
Definition nblocks (m nb : nat) : nat := (m + (nb - 1)) / nb.
Definition block_size (m nblk : nat) : res nat :=
  guard (negb (nblk =? 0)) ;;
  Ok (if m mod nblk =? 0 then m / nblk else m / nblk + 1).

(** src/GemmR.h:73-89: where tile [ij] starts (from 0 instead of 1) and its
    size: (row, column, mm, nn). *)
Definition tile_shape (m n nblk_i nb_i nb_j ij : nat) : res (nat * nat * nat * nat) :=
  let i_block := ij mod nblk_i in
  let j_block := (ij - i_block) / nblk_i in
  let ic_start := 1 + i_block * nb_i in
  let jc_start := 1 + j_block * nb_j in
  guard (int_ok (ic_start + nb_i)) ;;
  guard (int_ok (jc_start + nb_j)) ;;
  let ic_end := Nat.min m (ic_start + nb_i - 1) in
  let jc_end := Nat.min n (jc_start + nb_j - 1) in
  Ok (ic_start - 1, jc_start - 1, ic_end + 1 - ic_start, jc_end + 1 - jc_start).

Section GemmR.
  Variable R : cring.

  (** src/GemmR.h:72-110: the lambda, for tile [ij]. Taking the address of an
      element just outside an array is not counted as an access. *)
  Definition tile (tA tB : ascii) (m n k : nat) (alpha : R)
      (A : list R) (ldA : nat) (B : list R) (ldB : nat) (lenC ldC : nat)
      (nblk_i nb_i nb_j ij : nat) : res (list (update R)) :=
    do (i0, j0, mm, nn) <- tile_shape m n nblk_i nb_i nb_j ij ;;
    let pA := if is_notrans tA then i0 else i0 * ldA in
    let pB := if is_notrans tB then j0 * ldB else j0 in
    let pC := i0 + j0 * ldC in
    guard (int_ok pA) ;; guard (int_ok pB) ;; guard (int_ok pC) ;;
    gemm R tA tB mm nn k alpha A pA ldA B pB ldB lenC pC ldC.

  (** src/GemmR.h:119-124. *)
  Definition isSmall (nb m n : nat) : bool :=
    if nb =? 0 then true else (m <=? nb) && (n <=? nb).

  (** src/GemmR.h:24-32 and 36-117, with the pool of threads of
      src/Parallelizer2.h: the pthread one if [pthreads], the serial one
      otherwise. The result lists, for each thread, its writes in order, each
      with the number of its tile (0 if the product is not split). *)
  Definition gemmR (pthreads : bool) (nb nthreads : nat)
      (tA tB : ascii) (m n k : nat) (alpha : R)
      (A : list R) (ldA : nat) (B : list R) (ldB : nat) (lenC ldC : nat)
    : res (list (list (nat * update R))) :=
    if isSmall nb m n then
      do us <- gemm R tA tB m n k alpha A 0 ldA B 0 ldB lenC 0 ldC ;;
      Ok [map (fun u => (0, u)) us]
    else
      let nblk_i := nblocks m nb in
      let nblk_j := nblocks n nb in
      do nb_i <- block_size m nblk_i ;;
      do nb_j <- block_size n nblk_j ;;
      let tasks := nblk_i * nblk_j in
      let npthreads := Nat.min tasks nthreads in
      do ths <- (if pthreads then parallelFor 0 tasks npthreads
                 else parallelFor_serial 0 tasks npthreads) ;;
      traverse (fun calls =>
        do parts <- traverse (fun ij =>
          do us <- tile tA tB m n k alpha A ldA B ldB lenC ldC nblk_i nb_i nb_j ij ;;
          Ok (map (fun u => (ij, u)) us)) calls ;;
        Ok (concat parts)) ths.
End GemmR.
