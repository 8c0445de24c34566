(** What the decompositions of a matrix are, and what LAPACK promises *)
From Coq Require Import Ascii String ZArith.
From Verif Require Import Prelude Ring Dense_Model Dense_Spec Lap_Model.
Import List.

Section Spec.
  Variables T R : cring.
  Variable ofR : R -> T.               (** a real number as an element *)
  Variable le : R -> R -> Prop.
  Local Open Scope cring_scope.

  Definition hermitian (n : nat) (f : nat -> nat -> T) : Prop := forall i j, (i < n)%nat -> (j < n)%nat -> f j i = cconj (f i j).
  (** The first [k] columns of [v], with [n] rows, are orthonormal; so are the first [k] rows. *)
  Definition orthonormal (n k : nat) (v : nat -> nat -> T) : Prop :=
    forall p q, (p < k)%nat -> (q < k)%nat -> sumn n (fun i => cconj (v i p) * v i q) = delta p q.
  Definition orthonormal_rows (k n : nat) (v : nat -> nat -> T) : Prop :=
    forall p q, (p < k)%nat -> (q < k)%nat -> sumn n (fun j => v p j * cconj (v q j)) = delta p q.

  (** Eigenvectors [v] and values [e], in ascending order, of a Hermitian matrix [f] *)
  Definition eigen (n : nat) (f v : nat -> nat -> T) (e : nat -> R) : Prop :=
    orthonormal n n v /\
    (forall i j, (i < n)%nat -> (j < n)%nat -> f i j = sumn n (fun k => v i k * ofR (e k) * cconj (v j k))) /\
    (forall i j, (i <= j)%nat -> (j < n)%nat -> le (e i) (e j)).

  (** Right and left eigenvectors, of norm one, and eigenvalues *)
  Definition right_eigen (n : nat) (f : nat -> nat -> T) (w : nat -> T) (v : nat -> nat -> T) : Prop :=
    forall k, (k < n)%nat -> sumn n (fun i => cconj (v i k) * v i k) = c1 /\
      forall i, (i < n)%nat -> sumn n (fun j => f i j * v j k) = w k * v i k.
  Definition left_eigen (n : nat) (f : nat -> nat -> T) (w : nat -> T) (v : nat -> nat -> T) : Prop :=
    forall k, (k < n)%nat -> sumn n (fun i => cconj (v i k) * v i k) = c1 /\
      forall j, (j < n)%nat -> sumn n (fun i => cconj (v i k) * f i j) = w k * cconj (v j k).

  (** [g] is the inverse of [f] *)
  Definition inverse_of (n : nat) (f g : nat -> nat -> T) : Prop :=
    forall i j, (i < n)%nat -> (j < n)%nat ->
      sumn n (fun k => f i k * g k j) = delta i j /\ sumn n (fun k => g i k * f k j) = delta i j.

  (** Singular values [s], in descending order, with [p] left vectors (columns of [u]) and [q] right vectors (rows of [vt]) *)
  Definition singular (m n p q : nat) (f : nat -> nat -> T) (u : nat -> nat -> T) (s : nat -> R) (vt : nat -> nat -> T) : Prop :=
    orthonormal m p u /\ orthonormal_rows q n vt /\
    (forall i j, (i < m)%nat -> (j < n)%nat -> f i j = sumn (Nat.min m n) (fun k => u i k * ofR (s k) * vt k j)) /\
    (forall i j, (i <= j)%nat -> (j < Nat.min m n)%nat -> le (s j) (s i)) /\ (forall i, (i < Nat.min m n)%nat -> le c0 (s i)).

  Variable L : lapack T R.

  (** What LAPACK promises: the workspace it asks for is enough, and its results are right if INFO is 0. *)
  Record lapack_ok : Prop := {
    ok_syev_opt : forall jobz n, (1 <= n)%Z -> (Z.max 1 (if lp_complex L then 2 * n - 1 else 3 * n - 1) <= lp_syev_opt L jobz n)%Z;
    ok_syev_v : forall lwork n f v e, (1 <= n)%nat -> hermitian n f -> lp_syev L lwork "V" n (triangle true n f) = (v, e, 0%Z) -> eigen n f v e;
    ok_syev_n : forall lwork n f v e, (1 <= n)%nat -> hermitian n f -> lp_syev L lwork "N" n (triangle true n f) = (v, e, 0%Z) ->
      exists v', eigen n f v' e;
    ok_geev_opt : forall l r n, (1 <= n)%Z -> (Z.max 1 (2 * n) <= lp_geev_opt L l r n)%Z;
    ok_geev : forall lwork jl jr n f a w vl vr, (1 <= n)%nat -> lp_geev L lwork jl jr n (columns n n f) = (a, w, vl, vr, 0%Z) ->
      (jl = "V"%char -> left_eigen n f w vl) /\ (jr = "V"%char -> right_eigen n f w vr) /\ (exists v, right_eigen n f w v);
    ok_getri_opt : forall n, (1 <= n)%Z -> (Z.max 1 n <= lp_getri_opt L n)%Z;
    ok_getri : forall lwork n f lu piv info g, (1 <= n)%nat -> lp_getrf L n (columns n n f) = (lu, piv, info) ->
      lp_getri L lwork n (columns n n lu) (map piv (seq 0 n)) = (g, 0%Z) -> inverse_of n f g;
    ok_svd_opt : forall dd jobz m n, (1 <= m)%Z -> (1 <= n)%Z -> (svd_lwork T R L dd m n <= lp_svd_opt L dd jobz m n)%Z;
    ok_svd : forall dd lwork jobz m n f a s u vt, (1 <= m)%nat -> (1 <= n)%nat ->
      lp_svd L dd lwork jobz m n (columns m n f) = (a, s, u, vt, 0%Z) ->
      singular m n (if Ascii.eqb jobz "A" then m else Nat.min m n) (if Ascii.eqb jobz "A" then n else Nat.min m n) f u s vt
  }.
End Spec.
Arguments hermitian {T}.
Arguments eigen {T R}.
Arguments right_eigen {T}.
Arguments left_eigen {T}.
Arguments inverse_of {T}.
Arguments singular {T R}.
Arguments lapack_ok {T R}.
