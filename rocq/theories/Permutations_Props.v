(** C08: Permutations. *)
From Verif Require Import Prelude Sort_Model Sort_Spec Sort_Proofs
  Permutations_Model Permutations_Spec Permutations_Proofs.

(** One call: either the data are the lexicographically largest rearrangement,
    the result is false and nothing changes; or the result is true and the data
    become the next larger rearrangement. *)
Theorem C08_increase_is_successor : forall d,
  (increase d = Ok (false, d) /\ forall p, Permutation d p -> p = d \/ lexlt p d) \/
  exists d', increase d = Ok (true, d') /\ Permutation d d' /\ lexlt d d' /\
    forall p, Permutation d p -> lexlt d p -> p = d' \/ lexlt d' p.
Proof. exact increase_step. Qed.
Print Assumptions C08_increase_is_successor.

(** The whole loop: starting from the constructed object and calling
    increase() until it returns false visits a strictly increasing sequence of
    arrangements which consists of exactly the rearrangements of the original
    data (so each distinct one once). *)
Theorem C08_enumerates_all : forall srt orig, stdsort_ok Nat.ltb srt ->
  exists d l, perm_ctor srt orig = Ok d /\ visits increase d l /\ StronglySorted lexlt l /\
    forall p, In p l <-> Permutation orig p.
Proof. exact enumerate_all. Qed.
Print Assumptions C08_enumerates_all.

Example C08_nonvacuous :
  stdsort_ok Nat.ltb (isort Nat.ltb) /\
  perm_ctor (isort Nat.ltb) [2; 1; 1] = Ok [1; 1; 2] /\
  visits increase [1; 1; 2] [[1; 1; 2]; [1; 2; 1]; [2; 1; 1]] /\
  increase [1; 4; 3; 2] = Ok (true, [2; 1; 3; 4]).
Proof.
  split; [exact isort_ok|]. split; [reflexivity|]. split; [|reflexivity].
  eapply visits_step; [reflexivity|]. eapply visits_step; [reflexivity|].
  apply visits_last. reflexivity.
Qed.
