(** How a minimization ends. *)
From Coq Require Import ZArith.
From Verif Require Import Prelude.

Section Spec.
  Context {G : Type}.
  Variable iterate : G -> Z * G.
  Variable small : G -> bool.
  (** g' is the state after k iterations from g, none of which reported an error and before the last of which the test did
      not succeed. *)
  Inductive after (g : G) : nat -> G -> Prop :=
  | after_0 : after g 0 g
  | after_S k g1 g2 : after g k g1 -> (k <> 0 -> small g1 = false) -> iterate g1 = (0%Z, g2) -> after g (S k) g2.
  (** With no more than m iterations: the test succeeds after iteration k (from 0); iteration k reports the error s; or
      neither happens. *)
  Definition converges (g : G) (m k : nat) (g' : G) : Prop := k < m /\ after g (S k) g' /\ small g' = true.
  Definition fails (g : G) (m k : nat) (s : Z) : Prop :=
    k < m /\ s <> 0%Z /\ exists g1, after g k g1 /\ (k <> 0 -> small g1 = false) /\ fst (iterate g1) = s.
  Definition exhausted (g : G) (m : nat) (g' : G) : Prop := after g m g' /\ (m <> 0 -> small g' = false).
End Spec.
