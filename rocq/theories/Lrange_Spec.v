(** Connectors as a list of rows, and the matrix they stand for. *)
From Coq Require Import QArith Qcanon.
From Verif Require Import Prelude Ring Dense_Model Dense_Spec.
Import List.
Local Open Scope nat_scope.

(** One row of a compact table: site, orbital, site, orbital, value. *)
Record row := mkrow { r_site0 : nat; r_orb0 : nat; r_site1 : nat; r_orb1 : nat; r_value : QGring }.

(** The natural [n] as a number in the table. *)
Definition num (n : nat) : QGring := (Q2Qc (inject_Z (Z.of_nat n)), 0%Qc).

(** The row is about sites and orbitals that exist. *)
Definition row_ok (linSize dofs : nat) (r : row) : Prop :=
  r_site0 r < linSize /\ r_orb0 r < dofs /\ r_site1 r < linSize /\ r_orb1 r < dofs.

(** The table has the rows [rs]: with several orbitals per site it has the
    columns site, orbital, site, orbital, value; with one, site, site, value. *)
Definition cells (dofs : nat) (r : row) : list QGring :=
  if 1 <? dofs then [num (r_site0 r); num (r_orb0 r); num (r_site1 r); num (r_orb1 r); r_value r]
  else [num (r_site0 r); num (r_site1 r); r_value r].
Definition columns (dofs : nat) : nat := if 1 <? dofs then 5 else 3.
Definition dummy : row := mkrow 0 0 0 0 c0.
Definition is_table (dofs : nat) (values : mat QGring) (rs : list row) : Prop :=
  is_mat values (length rs) (columns dofs) (fun i c => nth c (cells dofs (nth i rs dummy)) c0).

(** The number is not an integer that fits in 64 bits. *)
Definition not_integer (v : QGring) : Prop :=
  forall z : Z, (- 2 ^ 63 <= z < 2 ^ 63)%Z -> v <> (Q2Qc (inject_Z z), 0%Qc).

(** The value listed for a pair of sites and orbitals: that of the last row
    about them, 0 if there is none. *)
Definition listed (rs : list row) (s0 o0 s1 o1 : nat) : QGring :=
  fold_left (fun v r =>
    if (r_site0 r =? s0) && (r_orb0 r =? o0) && (r_site1 r =? s1) && (r_orb1 r =? o1)
    then r_value r else v) rs c0.
