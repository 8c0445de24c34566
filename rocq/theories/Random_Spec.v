(** The MT19937 recurrence, from its published definition: words of w = 32 bits,
    degree n = 624, middle word m = 397, separation point r = 31, twist matrix
    coefficients a = 9908B0DF (hex). *)
From Coq Require Import QArith.
From Verif Require Import Prelude.
Local Open Scope N_scope.

(** x A: multiplication by the twist matrix. *)
Definition twist (x : N) : N :=
  if N.testbit x 0 then N.lxor (N.div x 2) 0x9908B0DF else N.div x 2.

(** The upper bit of [a] followed by the lower 31 bits of [b]. *)
Definition upper_lower (a b : N) : N := (a / 2 ^ 31) * 2 ^ 31 + b mod 2 ^ 31.

Definition mt_recurrence (w : nat -> N) : Prop :=
  forall k : nat, w (k + 624)%nat = N.lxor (w (k + 397)%nat) (twist (upper_lower (w k) (w (k + 1)%nat))).

(** The reference initialisation of MT19937 (init_genrand). *)
Fixpoint ref_init (k : nat) (s : N) : N :=
  match k with
  | O => s
  | S k' => let p := ref_init k' s in
            (1812433253 * N.lxor p (p / 2 ^ 30) + N.of_nat k) mod 2 ^ 32
  end.

(** [multiplicative order]: g^k = 1 mod p exactly for the multiples k of n. *)
Definition order_is (g p n : Z) : Prop :=
  forall k : Z, (0 <= k -> (g ^ k) mod p = 1 <-> (n | k))%Z.
