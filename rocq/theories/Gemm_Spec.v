(** What a matrix product is: independent of blocks, threads and pointers. *)
From Verif Require Import Prelude Ring.
From Coq Require Import Ascii.
Local Open Scope nat_scope.

(** The three meanings of a transposition flag, and the letters for them. *)
Inductive op := Plain | Trans | Adjoint.
Definition letter (t : ascii) (o : op) : Prop :=
  match o with
  | Plain => t = "N"%char \/ t = "n"%char
  | Trans => t = "T"%char \/ t = "t"%char
  | Adjoint => t = "C"%char \/ t = "c"%char
  end.

(** [X] holds a matrix with [r] rows and [c] columns, column by column, [ld]
    elements apart. *)
Definition holds {R : cring} (X : list R) (ld r c : nat) : Prop :=
  1 <= ld /\ r <= ld /\ forall i j, i < r -> j < c -> i + j * ld < length X.

(** [X] holds a matrix whose op has [r] rows and [c] columns. *)
Definition holds_op {R : cring} (o : op) (X : list R) (ld r c : nat) : Prop :=
  match o with Plain => holds X ld r c | _ => holds X ld c r end.

(** Element (i,j) of the matrix, of op of the matrix. *)
Definition elem {R : cring} (X : list R) (ld i j : nat) : R := nth (i + j * ld) X c0.
Definition elem_op {R : cring} (o : op) (X : list R) (ld i j : nat) : R :=
  match o with
  | Plain => elem X ld i j
  | Trans => elem X ld j i
  | Adjoint => cconj (elem X ld j i)
  end.

(** The number of columns of the stored matrix, whose op has r rows, c columns. *)
Definition stored_cols (o : op) (r c : nat) : nat :=
  match o with Plain => c | _ => r end.

(** [x] is representable in an [int]. *)
Definition in_int (x : nat) : Prop := (Z.of_nat x < 2 ^ 31)%Z.

(** C' is alpha op(A) op(B) + beta C in the m x n window, and equal to C in
    every other place of the array. *)
Definition is_product {R : cring} (oA oB : op) (m n k : nat) (alpha : R)
    (A : list R) (ldA : nat) (B : list R) (ldB : nat) (beta : R) (C : list R) (ldC : nat)
    (C' : list R) : Prop :=
  length C' = length C /\
  (forall i j, i < m -> j < n ->
     elem C' ldC i j =
     (alpha * sumn k (fun l => elem_op oA A ldA i l * elem_op oB B ldB l j)
      + beta * elem C ldC i j)%C) /\
  (forall p, (forall i j, i < m -> j < n -> p <> i + j * ldC) -> nth p C' c0 = nth p C c0).
