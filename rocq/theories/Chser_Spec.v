(** The spectral function of a sequence of Chebyshev moments, with the kernel polynomial method. *)
From Coq Require Import Reals.
From Verif Require Import Prelude Ring Cplx Rsum Cheb_Spec.
Local Open Scope R_scope.

(** T_n(x) *)
Definition T (n : nat) (x : R) : R := chebyshev Rring x n.

(** The kernels, for N moments *)
Definition jackson (N n : nat) : R :=
  let q := PI / INR (N + 1) in
  (INR (N + 1 - n) * cos (q * INR n) + sin (q * INR n) * (cos q / sin q)) / INR (N + 1).
Definition lorentz (lambda : R) (N n : nat) : R := sinh (lambda * (1 - INR n / INR N)) / sinh lambda.
Definition dirichlet (n : nat) : R := 1.

(** The moments are stored alternately *)
Definition stored (even odd : list R) (n : nat) : R := nth (Nat.div2 n) (if Nat.odd n then odd else even) 0.

(** g_0 mu_0 + 2 sum_(0<n<N) g_n mu_n T_n(x) *)
Definition series (N : nat) (g mu : nat -> R) (x : R) : R :=
  rsum N (fun n => (if (n =? 0)%nat then 1 else 2) * g n * mu n * T n x).
(** divided by sqrt(1 - x^2), and 0 outside (-1,1) and very near to its ends *)
Definition density (N : nat) (g mu : nat -> R) (x : R) : R :=
  if Rlt_dec (1 / 1000000000000) (1 - x * x) then series N g mu x / sqrt (1 - x * x) else 0.

(** The moments of a positive measure on [-1,1], given by K points and their weights *)
Definition positive_moments (K : nat) (w p : nat -> R) (mu : nat -> R) : Prop :=
  (forall k, (k < K)%nat -> 0 <= w k /\ -1 <= p k <= 1) /\ forall n, mu n = rsum K (fun k => w k * T n (p k)).
