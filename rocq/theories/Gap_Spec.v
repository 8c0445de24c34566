(** Lattices of which only the sites up to smax (the system) and from emin on (the environment) are there. *)
From Verif Require Import Prelude.
From Coq Require Import ZArith.
Local Open Scope Z_scope.

(** The system and the environment end in columns of [leg] sites that mirror each other. *)
Definition mirrored (leg smax emin : Z) : Prop := smax mod leg + emin mod leg = leg - 1.

(** By how many columns the environment has to be moved to be joined to the system: its first column is put onto the
    last one of the system if no site is there twice then, and next to it otherwise. *)
Definition columns_moved (leg smax emin : Z) : Z :=
  emin / leg - smax / leg - (if emin mod leg <=? smax mod leg then 1 else 0).

(** Couplings are zero between sites that are not joined. *)
Definition zero_unless {T} (L : Z) (conn : Z -> Z -> Prop) (val : Z -> Z -> res T) (zero : T) : Prop :=
  forall a b, 0 <= a < L -> 0 <= b < L -> ~ conn a b -> val a b = Ok zero.
