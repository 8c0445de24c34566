(** What a Lanczos decomposition is. *)
From Coq Require Import Reals.
From Verif Require Import Prelude Ring Cplx Tri_Model.
Local Open Scope nat_scope.

(** Inner product of two vectors of size n; the matrix H (by its elements)
    applied to a vector. *)
Definition inner (n : nat) (u v : list Cring) : Cring :=
  sumn n (fun i => cmul (cconj (nth i u c0)) (nth i v c0)).
Definition app_mat (n : nat) (H : nat -> nat -> Cring) (v : list Cring) (i : nat) : Cring :=
  sumn n (fun k => cmul (H i k) (nth k v c0)).
(** <u, H v> *)
Definition sandwich (n : nat) (H : nat -> nat -> Cring) (u v : list Cring) : Cring :=
  sumn n (fun i => cmul (cconj (nth i u c0)) (app_mat n H v i)).

Definition hermitian (n : nat) (H : nat -> nat -> Cring) : Prop :=
  forall i j, i < n -> j < n -> H i j = cconj (H j i).

(** The function given to the solver does x += H y. *)
Definition multiplies (n : nat) (H : nat -> nat -> Cring) (mvp : list Cring -> list Cring -> list Cring) : Prop :=
  forall x y, length x = n -> length y = n ->
    length (mvp x y) = n /\ forall i, i < n -> nth i (mvp x y) c0 = cadd (nth i x c0) (app_mat n H y i).

(** Element (i,j) of the tridiagonal matrix with diagonal a and off-diagonal
    b(1), b(2), ... *)
Definition tri_elem (a b : list R) (i j : nat) : R :=
  if i =? j then nth i a 0%R
  else if j =? i + 1 then nth j b 0%R
  else if i =? j + 1 then nth i b 0%R
  else 0%R.

(** [V] (by columns), [a], [b] is a Lanczos decomposition of H from [init]. The
    first [k] columns are proper vectors; if k is smaller than the number of
    columns, these [k] vectors already span a space that H maps into itself, and
    all that follows is zero. *)
Definition lanczos_ok (n : nat) (H : nat -> nat -> Cring) (init : list Cring)
    (V : list (list Cring)) (a b : list R) (k : nat) : Prop :=
  let m := length V in
  let v j := nth j V [] in
  1 <= k <= m /\
  (* the first vector is the start vector, normalised *)
  (exists r : R, (0 < r)%R /\ forall i, i < n -> nth i init c0 = cmul (RtoC r) (nth i (v 0) c0)) /\
  (* the first k vectors are orthonormal, the others are zero *)
  (forall i j, i < k -> j < k -> inner n (v i) (v j) = if i =? j then c1 else c0) /\
  (forall j, k <= j < m -> forall i, i < n -> nth i (v j) c0 = c0) /\
  (* H in the basis of the vectors is the tridiagonal matrix *)
  (forall i j, i < m -> j < m -> sandwich n H (v i) (v j) = RtoC (tri_elem a b i j)) /\
  (* three-term recurrence *)
  (forall j, j + 1 < m -> forall i, i < n ->
     app_mat n H (v j) i =
     cadd (cmul (RtoC (nth j a 0%R)) (nth i (v j) c0))
       (cadd (cmul (RtoC (nth (j + 1) b 0%R)) (nth i (v (j + 1)) c0))
             (if j =? 0 then c0 else cmul (RtoC (nth j b 0%R)) (nth i (v (j - 1)) c0)))) /\
  (* k is where the off-diagonal elements stop *)
  nth 0 b 0%R = 0%R /\
  (forall j, 1 <= j < m -> (0 <= nth j b 0)%R /\ (nth j b 0%R <> 0%R <-> j < k)).

(** (theta, s) is an eigenpair of the tridiagonal matrix, s of norm 1. *)
Definition tri_eigen (a b : list R) (theta : R) (s : list Cring) : Prop :=
  let m := length a in
  length s = m /\
  (forall i, i < m -> sumn m (fun j => cmul (RtoC (tri_elem a b i j)) (nth j s c0)) = cmul (RtoC theta) (nth i s c0)) /\
  inner m s s = c1.

(** A diagonalisation routine: its results are eigenpairs, the first one is the lowest. *)
Definition diagonalizes (diagV : Tri_Model.tri Rring -> option (list R * list (list Cring))) : Prop :=
  forall ab eigs ritz, diagV ab = Some (eigs, ritz) ->
    let a := Tri_Model.t_a ab in let b := Tri_Model.t_b ab in
    length eigs = length a /\ length ritz = length a /\
    (forall i, i < length a -> tri_eigen a b (nth i eigs 0%R) (nth i ritz [])) /\
    (forall theta s, tri_eigen a b theta s -> (nth 0 eigs 0 <= theta)%R).

(** The eigenvalues of the leading block of a tridiagonal matrix, as a function of the matrix: there are as many as the
    block has rows, and only the elements of the block count. *)
Definition of_block (stedc : nat -> list R -> list R -> option (list R)) : Prop :=
  (forall nn a b ev, stedc nn a b = Some ev -> length ev = nn) /\
  (forall nn a b a' b', (forall i, i < nn -> nth i a 0%R = nth i a' 0%R) -> (forall i, 1 <= i < nn -> nth i b 0%R = nth i b' 0%R) ->
     stedc nn a b = stedc nn a' b').
(** From s - 1 to s vectors, the lowest eigenvalues, as many as are watched, change by less than the tolerance. With
    two vectors, they are compared with 0. *)
Definition settled (stedc : nat -> list R -> list R -> option (list R)) (tolerance : R) (watched : nat) (a b : list R) (s : nat) : Prop :=
  exists ev ev', stedc s a b = Some ev /\ (if s =? 2 then ev' = [] else stedc (s - 1) a b = Some ev') /\
    forall i, i < watched -> (Rabs (nth i ev 0 - nth i ev' 0) < tolerance)%R.
