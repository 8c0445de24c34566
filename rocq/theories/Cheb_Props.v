(** C55: Chebyshev polynomials. *)
From Verif Require Import Prelude Ring Cheb_Model Cheb_Spec Cheb_Proofs.

(** Both implementations compute the polynomial of every order, with recursion depth at most the order plus
    one. *)
Theorem C55_chebyshev : forall (R : cring) (x : R) (m fuel : nat), m < fuel ->
  cheb R fuel (Z.of_nat m) x = Ok (chebyshev R x m) /\ chebExplicit R fuel (Z.of_nat m) x = Ok (chebyshev R x m).
Proof. intros R x m fuel H. split; [apply cheb_ok|apply chebExplicit_ok]; auto. Qed.
Print Assumptions C55_chebyshev.

(** The defining recurrence, so that what both compute is fixed without reference to [chebyshev]. *)
Theorem C55_recurrence : forall (R : cring) (x : R),
  exists T : nat -> R, T 0 = c1 /\ T 1 = x /\ (forall n, T (S (S n)) = ((c1 + c1) * x * T (S n) - T n)%C) /\
    forall m fuel, m < fuel -> cheb R fuel (Z.of_nat m) x = Ok (T m) /\ chebExplicit R fuel (Z.of_nat m) x = Ok (T m).
Proof.
  intros R x. exists (chebyshev R x). split; [reflexivity|]. split; [reflexivity|]. split; [apply T_SS|].
  intros m fuel H. apply C55_chebyshev. auto.
Qed.
Print Assumptions C55_recurrence.

(** A negative order is not rejected: the recursion never ends, although T_(-m) = T_m. *)
Theorem C55_negative : forall (R : cring) (x : R) m fuel, (m < 0)%Z -> cheb R fuel m x = OutOfFuel /\ chebExplicit R fuel m x = OutOfFuel.
Proof. intros. apply cheb_neg. auto. Qed.
Print Assumptions C55_negative.

Example C55_nonvacuous : cheb Zring 14 13 3%Z = Ok 4478554083%Z /\ chebExplicit Zring 14 13 3%Z = Ok 4478554083%Z /\ chebyshev Zring 3%Z 13 = 4478554083%Z.
Proof. repeat split; vm_compute; reflexivity. Qed.
