(** What a change of basis is: sums over the elements. *)
From Verif Require Import Prelude Ring Dense_Model Dense_Spec.
Local Open Scope nat_scope.
Local Open Scope cring_scope.

Section Spec.
  Context {R : cring}.
  (** Element (i,j) of T^dagger m T, where the old basis has [n] vectors. *)
  Definition changed (n : nat) (m T : nat -> nat -> R) (i j : nat) : R :=
    sumn n (fun a => sumn n (fun b => cconj (T a i) * m a b * T b j)).
  (** Element (i,j) of the product of two matrices. *)
  Definition times (n : nat) (A B : nat -> nat -> R) (i j : nat) : R := sumn n (fun l => A i l * B l j).
  (** The sum of the diagonal. *)
  Definition trace (n : nat) (A : nat -> nat -> R) : R := sumn n (fun i => A i i).
End Spec.
