(** What the lattices are, in terms of coordinates. *)
From Verif Require Import Prelude.
From Coq Require Import ZArith Permutation.
Local Open Scope Z_scope.

(** Two points of a line of [n] points, closed into a ring when [per], that are
    next to each other. *)
Definition line_adj (n : Z) (per : bool) (a b : Z) : Prop :=
  a <> b /\ (Z.abs (a - b) = 1 \/ (per = true /\ Z.abs (a - b) = n - 1)).

(** The bonds of a rectangular grid of [nx] columns and [ny] rows. *)
Definition grid_adj (nx ny : Z) (px py : bool) (c1 r1 c2 r2 : Z) : Prop :=
  (c1 = c2 /\ line_adj ny py r1 r2) \/ (r1 = r2 /\ line_adj nx px c1 c2).

(** The grid with, in addition, the two diagonals of every square. *)
Definition gridx_adj (nx ny : Z) (px : bool) (c1 r1 c2 r2 : Z) : Prop :=
  grid_adj nx ny px false c1 r1 c2 r2 \/ (Z.abs (c1 - c2) = 1 /\ Z.abs (r1 - r2) = 1).

(** A chain where each site is tied to those at distance [d]. *)
Definition chain_adj (L d : Z) (per : bool) (i j : Z) : Prop :=
  i <> j /\ (Z.abs (i - j) = d \/ (per = true /\ Z.abs (i - j) = L - d)).

(** The same bond, in either order. *)
Definition same_bond (i1 i2 j1 j2 : Z) : Prop := (i1 = j1 /\ i2 = j2) \/ (i1 = j2 /\ i2 = j1).

Definition in_range (n i : Z) : Prop := 0 <= i < n.

(** A map of 0..n-1 onto itself, one to one. *)
Definition is_bijection (n : Z) (f : Z -> Z) : Prop :=
  (forall i, in_range n i -> in_range n (f i)) /\
  (forall i j, in_range n i -> in_range n j -> f i = f j -> i = j) /\
  (forall j, in_range n j -> exists i, in_range n i /\ f i = j).

(** K2NiF4: every fourth site is copper-like, with one orbital; the others have two. *)
Definition k2_valid (n i orb : Z) : Prop :=
  in_range n i /\ in_range (if i mod 4 =? 3 then 1 else 2) orb.

(** Sites left when those strictly between [smax] and [emin] are removed, renumbered. *)
Definition contract (smax emin i : Z) : Z := if i <=? smax then i else i - emin + smax + 1.
