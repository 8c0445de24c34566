(** What linear prediction is. *)
From Verif Require Import Prelude Ring.
Local Open Scope nat_scope.

Section Spec.
  Variable F : cring.

  (** The value the coefficients [d] give for place [i] from the values before:
      d_0 y_{i-1} + d_1 y_{i-2} + ... *)
  Definition forecast (d y : list F) (i : nat) : F :=
    sumn (length d) (fun j => cmul (nth j d c0) (nth (i - 1 - j) y c0)).

  (** [y'] is [y] followed by [q] values, each the forecast from those before. *)
  Definition continues (d y y' : list F) (q : nat) : Prop :=
    length y' = length y + q /\ firstn (length y) y' = y /\
    forall i, length y <= i < length y + q -> nth i y' c0 = forecast d y' i.

  (** The second half of the data obeys the recurrence. *)
  Definition obeys (d y : list F) (n : nat) : Prop :=
    forall i, n <= i < 2 * n -> nth i y c0 = forecast d y i.

  (** The squared error of the forecasts of the second half of the data. *)
  Definition error2 (d y : list F) (n : nat) : F :=
    suml (fun i => cmul (csub (nth i y c0) (forecast d y i)) (csub (nth i y c0) (forecast d y i)))
         (seq n n).

  (** A p x p matrix, element (l,j) at l + j p, times a vector. *)
  Definition mat_vec (p : nat) (A : list F) (v : list F) (l : nat) : F :=
    sumn p (fun j => cmul (nth (l + j * p) A c0) (nth j v c0)).
  Definition delta (i j : nat) : F := if i =? j then c1 else c0.
  Definition invertible (p : nat) (A : list F) : Prop :=
    exists X : nat -> nat -> F, forall l j, l < p -> j < p ->
      sumn p (fun k => cmul (X l k) (nth (k + j * p) A c0)) = delta l j.
  (** LAPACK solves the p x p systems whose matrix is invertible. *)
  Definition solver_ok (p : nat) (solve : nat -> list F -> list F -> list F) : Prop :=
    forall A B, length A = p * p -> length B = p -> invertible p A ->
      length (solve p A B) = p /\
      forall l, l < p -> mat_vec p A (solve p A B) l = nth l B c0.

  (** The matrix of the normal equations of the fit. *)
  Definition gram (y : list F) (n l j : nat) : F :=
    suml (fun i => cmul (nth (i - 1 - l) y c0) (nth (i - 1 - j) y c0)) (seq n n).
  (** The data determine the coefficients: the matrix of the normal equations
      has an inverse. *)
  Definition determined (y : list F) (n p : nat) : Prop :=
    exists X : nat -> nat -> F, forall l j, l < p -> j < p ->
      sumn p (fun k => cmul (X l k) (gram y n k j)) = delta l j.

  (** Polynomials, constant term first. *)
  Fixpoint eval (c : list F) (x : F) : F :=
    match c with
    | [] => c0
    | a :: c' => cadd a (cmul x (eval c' x))
    end.
  (** (X - r) times a polynomial. *)
  Fixpoint times_linear_from (prev r : F) (c : list F) : list F :=
    match c with
    | [] => [prev]
    | a :: c' => csub prev (cmul r a) :: times_linear_from a r c'
    end.
  Definition times_linear (r : F) (c : list F) : list F := times_linear_from c0 r c.
  (** The product of the (X - r). *)
  Definition monic (roots : list F) : list F :=
    fold_left (fun c r => times_linear r c) roots [c1].
  Fixpoint product_at (roots : list F) (x : F) : F :=
    match roots with
    | [] => c1
    | r :: roots' => cmul (csub x r) (product_at roots' x)
    end.
End Spec.
