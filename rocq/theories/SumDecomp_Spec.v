(** Binomial coefficients, for the number of compositions. *)
From Verif Require Import Prelude.

Fixpoint binom (n k : nat) : nat :=
  match k, n with
  | 0, _ => 1
  | S _, 0 => 0
  | S k', S n' => binom n' k' + binom n' k
  end.

(** A vector of [total] non-negative integers with the given sum. *)
Definition is_composition (total sum : nat) (v : list nat) : Prop :=
  length v = total /\ fold_right Nat.add 0 v = sum.
