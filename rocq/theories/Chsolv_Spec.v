(** What the Chebyshev recurrence computes. *)
From Coq Require Import Reals.
From Verif Require Import Prelude Ring Cplx Lanczos_Spec.
Local Open Scope nat_scope.

(** The element i of s (H - b) v *)
Definition scaled (n : nat) (H : nat -> nat -> Cring) (b s : R) (v : list Cring) (i : nat) : Cring :=
  cmul (RtoC s) (csub (app_mat n H v i) (cmul (RtoC b) (nth i v c0))).

(** v is the sequence of vectors T_k(s (H - b)) init, with T_k the Chebyshev polynomials: T_0 = 1, T_1 = x,
    T_(k+2) = 2 x T_(k+1) - T_k. *)
Definition chebyshev_vectors (n : nat) (H : nat -> nat -> Cring) (b s : R) (init : list Cring) (v : nat -> list Cring) : Prop :=
  v 0 = init /\ (forall k, length (v k) = n) /\
  (forall i, i < n -> nth i (v 1) c0 = scaled n H b s (v 0) i) /\
  (forall k i, i < n -> nth i (v (k + 2)) c0 = csub (cmul (cadd c1 c1) (scaled n H b s (v (k + 1)) i)) (nth i (v k) c0)).

(** The moment k: <init, T_k init> *)
Definition moment (n : nat) (init : list Cring) (v : nat -> list Cring) (k : nat) : Cring := inner n init (v k).
