(** C07: Sort. *)
From Verif Require Import Prelude Sort_Model Sort_Spec Sort_Proofs.

(** For every [std::sort] meeting its contract, every vector x and every
    iperm of the same size: the call succeeds, the new x is ascending, the new
    iperm is a permutation of 0..n-1, and new x[i] = old x[iperm[i]]. *)
Theorem C07_sort :
  forall (K : Type) (ltk : K -> K -> bool) (srt : list (K * nat) -> list (K * nat)),
  stdsort_ok ltk srt ->
  forall (x : list K) (iperm : list nat), length iperm = length x ->
  exists x' ip',
    sort srt x iperm 0 = Ok (x', ip') /\
    length x' = length x /\
    ascending ltk x' /\
    Permutation (seq 0 (length x)) ip' /\
    forall d i, i < length x -> nth i x' d = nth (nth i ip' 0) x d.
Proof. exact sort_correct. Qed.
Print Assumptions C07_sort.

(** With a non-zero [smallSize] = n only the first n elements are sorted and
    the others are left alone. *)
Theorem C07_sort_smallSize :
  forall (K : Type) (ltk : K -> K -> bool) (srt : list (K * nat) -> list (K * nat)),
  stdsort_ok ltk srt ->
  forall (x : list K) (iperm : list nat) (n : nat),
  0 < n -> n <= length x -> length iperm = n ->
  exists x' ip',
    sort srt x iperm n = Ok (x' ++ skipn n x, ip') /\
    length x' = n /\
    ascending ltk x' /\
    Permutation (seq 0 n) ip' /\
    forall d i, i < n -> nth i x' d = nth (nth i ip' 0) x d.
Proof. exact sort_small. Qed.
Print Assumptions C07_sort_smallSize.

(** A function meeting the contract of std::sort exists, and sorting with it
    gives what one expects. *)
Example C07_nonvacuous :
  stdsort_ok Nat.ltb (isort Nat.ltb) /\
  sort (isort Nat.ltb) [5; 1; 4; 1] [0; 0; 0; 0] 0 = Ok ([1; 1; 4; 5], [1; 3; 2; 0]) /\
  sort (isort Nat.ltb) [5; 1; 4; 1] [0; 0; 0] 3 = Ok ([1; 4; 5; 1], [1; 2; 0]).
Proof. split; [exact isort_ok|]. split; reflexivity. Qed.
