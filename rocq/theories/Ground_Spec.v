(** Eigenvalues of real symmetric matrices, given by their elements. *)
From Coq Require Import Reals.
From Verif Require Import Prelude Rsum.
Local Open Scope R_scope.

(** Row x of M times the vector v; <u, v>; <v, M v> *)
Definition mv (n : nat) (M : nat -> nat -> R) (v : nat -> R) (x : nat) : R := rsum n (fun y => M x y * v y).
Definition dot (n : nat) (u v : nat -> R) : R := rsum n (fun x => u x * v x).
Definition form (n : nat) (M : nat -> nat -> R) (v : nat -> R) : R := dot n v (mv n M v).

(** D is the list of the n eigenvalues of M with their multiplicity: there are n orthonormal eigenvectors. *)
Definition eigenvalues (n : nat) (M : nat -> nat -> R) (D : list R) : Prop :=
  length D = n /\ exists q : nat -> nat -> R,
    (forall j k, (j < n)%nat -> (k < n)%nat -> dot n (q j) (q k) = if (j =? k)%nat then 1 else 0) /\
    (forall k, (k < n)%nat -> forall x, (x < n)%nat -> mv n M (q k) x = nth k D 0 * q k x).

(** The tridiagonal matrix with diagonal a and the coupling of j and j+1 given by [off j] *)
Definition tridiagonal (a : list R) (off : nat -> R) (i j : nat) : R :=
  if (i =? j)%nat then nth i a 0 else if (j =? i + 1)%nat then off i else if (i =? j + 1)%nat then off j else 0.

Definition sorted (D : list R) : Prop := forall i j, (i < j < length D)%nat -> nth i D 0 <= nth j D 0.

(** The quadratic form of M is at most B |v|^2 in absolute value. *)
Definition bounded (n : nat) (M : nat -> nat -> R) (B : R) : Prop := forall v, Rabs (form n M v) <= B * dot n v v.
