(** What calls of a solver, one after the other, are expected to give. *)
From Coq Require Import Reals.
From Verif Require Import Prelude Ring Cplx Tri_Model.
Local Open Scope nat_scope.

(** The results of a sequence of calls with arguments [xs], where [f k x r] says that a solver made for k steps gives r for x:
    the first call is that of a solver made for [k] steps, every other one that of a solver made for as many steps as the
    call before it took. *)
Fixpoint one_by_one {X T : Type} (f : nat -> X -> list T * tri Rring -> Prop) (k : nat) (xs : list X) (rs : list (list T * tri Rring)) : Prop :=
  match xs, rs with
  | [], [] => True
  | x :: xs, r :: rs => f k x r /\ one_by_one f (length (fst r)) xs rs
  | _, _ => False
  end.
