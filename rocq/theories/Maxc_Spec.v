(** Connections broken when a lattice is split in two. *)
From Verif Require Import Prelude.
From Coq Require Import ZArith.
Local Open Scope Z_scope.

(** The bonds between the sites below [m] and the other ones of [L] sites. *)
Definition broken (L : Z) (bond : Z -> Z -> Prop) (m : Z) (p : Z * Z) : Prop :=
  0 <= fst p < m /\ m <= snd p < L /\ bond (fst p) (snd p).

(** There are no more than [n] things with the property [P]. *)
Definition at_most {A} (n : Z) (P : A -> Prop) : Prop :=
  forall l : list A, NoDup l -> (forall x, In x l -> P x) -> Z.of_nat (length l) <= n.

(** Wherever the lattice is split, no more than [n] bonds are broken. *)
Definition breaks_at_most (n L : Z) (bond : Z -> Z -> Prop) : Prop :=
  forall m, 0 <= m <= L -> at_most n (broken L bond m).

(** Somewhere the lattice can be split with more than [n] bonds broken. *)
Definition breaks_more (n L : Z) (bond : Z -> Z -> Prop) : Prop :=
  exists m, 0 <= m <= L /\ exists l : list (Z * Z),
    NoDup l /\ (forall p, In p l -> broken L bond m p) /\ n < Z.of_nat (length l).
