(** Model of src/MatrixNonOwned.h, matrices that are views of a part of a vector, and of [basenameOf] of src/Vector.h.

    Sizes are [Z] from 0 to 2^64 - 1, and sums, differences and products of them wrap around (SizeType as
    [long unsigned int], src/AllocatorCpu.h:44); a failed assertion is [UB]. A view has a pointer to a vector: here the
    vector is an argument, and after a write the changed vector is the result. *)
From Coq Require Import ZArith Ascii.
From Verif Require Import Prelude Ring Str_Model Dense_Model.
Local Open Scope Z_scope.

(** Arithmetic of SizeType. *)
Definition w64 (z : Z) : Z := z mod 2 ^ 64.

(** The members but the pointer: src/MatrixNonOwned.h:88-91. *)
Record view := mkview { v_nrow : Z; v_ncol : Z; v_offset : Z }.

Section View.
  Context {A : Type}.

  (** check(): src/MatrixNonOwned.h:78-82 *)
  Definition view_check (v : view) (data : list A) : bool :=
    w64 (w64 (w64 (v_offset v + v_nrow v) - 1) + w64 (w64 (v_ncol v - 1) * v_nrow v)) <? Z.of_nat (length data).

  (** MatrixNonOwned(nrow, ncol, data, offset): src/MatrixNonOwned.h:23-30 *)
  Definition view_new (nrow ncol : Z) (data : list A) (offset : Z) : res view :=
    let v := mkview nrow ncol offset in guard (view_check v data) ;; Ok v.

  (** Where element (i,j) is, with the assertions: src/MatrixNonOwned.h:52-66 *)
  Definition view_place (v : view) (data : list A) (i j : Z) : res nat :=
    guard (i <? v_nrow v) ;; guard (j <? v_ncol v) ;;
    let p := w64 (w64 (v_offset v + i) + w64 (j * v_nrow v)) in
    guard (p <? Z.of_nat (length data)) ;; Ok (Z.to_nat p).

  (** operator()(i, j) const: src/MatrixNonOwned.h:52-58 *)
  Definition view_get (v : view) (data : list A) (i j : Z) : res A :=
    do p <- view_place v data i j ;; vget data p.

  (** operator()(i, j) = x: src/MatrixNonOwned.h:60-66 *)
  Definition view_set (v : view) (data : list A) (i j : Z) (x : A) : res (list A) :=
    do p <- view_place v data i j ;; vset data p x.
End View.

(** MatrixNonOwned(m): src/MatrixNonOwned.h:32-50, both constructors *)
Definition view_of {R : cring} (m : mat R) : res view :=
  view_new (Z.of_nat (m_nrow m)) (Z.of_nat (m_ncol m)) (m_data m) 0.

(** basenameOf: src/Vector.h:555-566. The loop with [l - i] as argument; [j] is an [int], and names are shorter than 2^31.
    The result is [j]. *)
Fixpoint last_dot (s : str) (left : nat) (j : nat) : res nat :=
  match left with
  | O => Ok j
  | S j => do letter <- vget s j ;; if Ascii.eqb letter "." then Ok j else last_dot s j j
  end.
Definition basenameOf (s : str) : res str :=
  do j <- last_dot s (length s) 0 ;; Ok (firstn (length s - j) s).
