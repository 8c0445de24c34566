(** The classical Runge-Kutta method of order four. *)
From Coq Require Import Reals.
From Verif Require Import Prelude Ring Cplx.

Section Spec.
  Variable R : cring.
  Local Open Scope cring_scope.
  Variables half sixth : R.
  Variable f : R -> list R -> list R.
  Variable h : R.

  (** a + t b, component by component *)
  Definition axpy (a : list R) (t : R) (b : list R) : list R := map (fun i => nth i a c0 + t * nth i b c0) (seq 0 (length a)).

  (** One step from time t: y + h/6 (K1 + 2 K2 + 2 K3 + K4) *)
  Definition rk4 (t : R) (y : list R) : list R :=
    let K1 := f t y in
    let K2 := f (t + h * half) (axpy y (h * half) K1) in
    let K3 := f (t + h * half) (axpy y (h * half) K2) in
    let K4 := f (t + h) (axpy y h K3) in
    map (fun i => nth i y c0 + h * sixth * (nth i K1 c0 + (c1 + c1) * nth i K2 c0 + (c1 + c1) * nth i K3 c0 + nth i K4 c0)) (seq 0 (length y)).

  (** i times h *)
  Fixpoint times (i : nat) : R := match i with 0%nat => c0 | S i => times i + h end.

  (** The values at t0, t0 + h, t0 + 2h, ... *)
  Fixpoint steps (t0 : R) (y0 : list R) (i : nat) : list R := match i with 0%nat => y0 | S i => rk4 (t0 + times i) (steps t0 y0 i) end.
End Spec.

(** A polynomial of degree three, and one whose derivative it is *)
Definition cubic (a b c d t : R) : R := (a + b * t + c * t ^ 2 + d * t ^ 3)%R.
Definition quartic (a b c d t : R) : R := (a * t + b * t ^ 2 / 2 + c * t ^ 3 / 3 + d * t ^ 4 / 4)%R.

(** |z|^2 *)
Definition nrm2 (z : Cring) : R := (fst z * fst z + snd z * snd z)%R.
