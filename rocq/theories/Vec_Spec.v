(** What the vector expressions of src/Vector.h are meant to compute,
    element by element. *)
From Verif Require Import Prelude Ring.

Section Spec.
  Variable R : cring.

  (** The vector [u] has length [n] and its [k]-th element is [f k]. *)
  Definition is_vec (u : list R) (n : nat) (f : nat -> R) : Prop :=
    length u = n /\ forall k, k < n -> nth k u c0 = f k.

  (** k-th component of a vector *)
  Definition vel (u : list R) (k : nat) : R := nth k u c0.

  (** Sesquilinear form: sum over k of conj(a_k) b_k. *)
  Definition inner (a b : list R) : R := sumn (length a) (fun k => cmul (cconj (vel a k)) (vel b k)).
End Spec.
Arguments is_vec {R} u n f.
Arguments vel {R} u k.
Arguments inner {R} a b.
