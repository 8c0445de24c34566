(** Specification of the Chebyshev polynomials of the first kind: T_0 = 1, T_1 = x,
    T_(n+2) = 2 x T_(n+1) - T_n. *)
From Verif Require Import Prelude Ring.

(** The pair (T_n, T_(n+1)) *)
Fixpoint chebyshev_pair (R : cring) (x : R) (n : nat) : R * R :=
  match n with
  | 0 => (c1, x)
  | S n' => let '(a, b) := chebyshev_pair R x n' in (b, ((c1 + c1) * x * b - a)%C)
  end.
Definition chebyshev (R : cring) (x : R) (n : nat) : R := fst (chebyshev_pair R x n).
