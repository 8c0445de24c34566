(** Specification of the plots of src/ContinuedFraction.h. *)
From Coq Require Import Reals.
From Verif Require Import Prelude Ring Cplx.
Local Open Scope R_scope.

(** weight * sum over l of intensity l / (z - sign (Eg - eig l)) *)
Definition spectral (weight : Cring) (intensity eigs : list R) (Eg : R) (sign : Z) (z : Cring) : Cring :=
  cmul (suml (fun ie => Cdiv (RtoC (fst ie)) (csub z (RtoC (IZR sign * (Eg - snd ie))))) (combine intensity eigs)) weight.

(** x is the first column of the inverse of (w + s T) of size n: (w + s T) x = e_0 *)
Definition solves (n : nat) (w s : Cring) (T : nat -> nat -> R) (x : nat -> Cring) : Prop :=
  forall i, (i < n)%nat -> cadd (cmul w (x i)) (cmul s (sumn n (fun j => cmul (RtoC (T i j)) (x j)))) = if (i =? 0)%nat then c1 else c0.

(** The continued fraction 1 / (d_0 - f_1 / (d_1 - f_2 / ( ... - f_(m) / d_m))), as its denominators: [cf_den]
    d f k is the denominator that starts at position k with m more levels. *)
Fixpoint cf_den (d f : nat -> Cring) (m k : nat) : Cring :=
  match m with
  | 0%nat => d k
  | S m' => csub (d k) (Cdiv (f (S k)) (cf_den d f m' (S k)))
  end.
