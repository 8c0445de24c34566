(** C09, C10: SumDecomposition and PackIndices. *)
From Verif Require Import Prelude SumDecomp_Model SumDecomp_Spec Permutations_Spec SumDecomp_Proofs.

(** C09. With SEL_ALL the object stores exactly the vectors of length [total]
    with sum [sum], in strictly increasing lexicographic order (hence each
    once), and size() is their number. *)
Theorem C09_all_compositions : forall total sum selection,
  exists L, sd_ctor total sum SEL_ALL selection = Ok {| sd_stored := L; sd_size := length L |} /\
    (forall v, In v L <-> is_composition total sum v) /\ StronglySorted lexlt L.
Proof. exact sd_all. Qed.
Print Assumptions C09_all_compositions.

(** SEL_SIZE stores nothing, SEL_INDEX stores exactly the requested vector (or
    nothing when there is no such index); size() is the same in every mode. *)
Theorem C09_other_modes : forall total sum selection L n,
  sd_ctor total sum SEL_ALL selection = Ok {| sd_stored := L; sd_size := n |} ->
  (forall k, sd_ctor total sum SEL_SIZE k = Ok {| sd_stored := []; sd_size := n |}) /\
  (forall k, sd_ctor total sum SEL_INDEX k =
     Ok {| sd_stored := if (0 <=? k)%Z then match nth_error L (Z.to_nat k) with Some v => [v] | None => [] end
                        else [];
           sd_size := n |}).
Proof. exact sd_other. Qed.
Print Assumptions C09_other_modes.

(** The number is the binomial coefficient (sum+total-1 choose total-1). *)
Theorem C09_size : forall t sum sel selection,
  exists st, sd_ctor (S t) sum sel selection = Ok st /\ sd_size st = binom (sum + t) t.
Proof. exact sd_size_binom. Qed.
Print Assumptions C09_size.

Example C09_nonvacuous :
  sd_ctor 2 2 SEL_ALL 0 = Ok {| sd_stored := [[0; 2]; [1; 1]; [2; 0]]; sd_size := 3 |} /\
  sd_ctor 2 2 SEL_INDEX 1 = Ok {| sd_stored := [[1; 1]]; sd_size := 3 |} /\
  sd_ctor 3 4 SEL_SIZE 0 = Ok {| sd_stored := []; sd_size := 15 |}.
Proof. repeat split. Qed.

(** Asking for a composition by its number gives the one stored there, and is refused for a number that is too large. *)
Theorem C09_at : forall st i,
  (i < length (sd_stored st) -> sd_at st i = Ok (nth i (sd_stored st) [])) /\
  (length (sd_stored st) <= i -> sd_at st i = Throw).
Proof.
  intros st i. unfold sd_at. destruct (Nat.ltb_spec i (length (sd_stored st))); split; intros; try lia; auto.
  apply vget_ok. auto.
Qed.
Print Assumptions C09_at.

(** C10. For sizes that fit a (signed) long, unpack gives the remainder and the
    quotient, x < n and x + y*n = ind. *)
Theorem C10_unpack : forall n ind, (0 < n < 2 ^ 63)%Z -> (0 <= ind < 2 ^ 63)%Z ->
  exists x y, unpack n ind = Ok (x, y) /\ (0 <= x < n)%Z /\ (0 <= y)%Z /\ (x + y * n = ind)%Z.
Proof.
  intros n ind Hn Hi. exists (ind mod n)%Z, (ind / n)%Z.
  split; [exact (unpack_ok n ind Hn Hi)|].
  pose proof (Z.mod_pos_bound ind n (proj1 Hn)). pose proof (Z.div_mod ind n).
  pose proof (Z.div_pos ind n (proj1 Hi) (proj1 Hn)). lia.
Qed.
Print Assumptions C10_unpack.

(** unpack and then pack through the inverse of a permutation finds the position. *)
Theorem C10_pack_unpack : forall n (perm inv : list Z),
  (0 < n < 2 ^ 63)%Z ->
  (forall i, i < length perm -> (0 <= nth i perm 0 < 2 ^ 63)%Z /\
      Z.to_nat (nth i perm 0%Z) < length inv /\
      nth (Z.to_nat (nth i perm 0%Z)) inv 0%Z = Z.of_nat i) ->
  forall i, i < length perm ->
  exists x y, unpack n (nth i perm 0%Z) = Ok (x, y) /\ (0 <= x < n)%Z /\ (0 <= y)%Z /\
    (x + n * y = nth i perm 0%Z)%Z /\ pack n x y inv = Ok (Z.of_nat i).
Proof. exact pack_unpack. Qed.
Print Assumptions C10_pack_unpack.

(** Outside that range the conversion to long makes unpack wrong: the bound on
    the index cannot be dropped. *)
Theorem C10_unpack_huge_refuted :
  exists n ind x y, (0 < n < 2 ^ 63)%Z /\ (0 <= ind < 2 ^ 64)%Z /\
    unpack n ind = Ok (x, y) /\ ~ (x < n)%Z.
Proof.
  exists 3%Z, (2 ^ 63)%Z, 18446744073709551614%Z, 15372286728091293014%Z.
  repeat split; vm_compute; congruence.
Qed.
Print Assumptions C10_unpack_huge_refuted.

Example C10_nonvacuous :
  unpack 3 7 = Ok (1, 2)%Z /\
  (forall i, i < length [2; 0; 1]%Z -> (0 <= nth i [2; 0; 1] 0 < 2 ^ 63)%Z /\
      Z.to_nat (nth i [2; 0; 1]%Z 0%Z) < length [1; 2; 0]%Z /\
      nth (Z.to_nat (nth i [2; 0; 1]%Z 0%Z)) [1; 2; 0]%Z 0%Z = Z.of_nat i).
Proof.
  split; [reflexivity|]. intros i Hi.
  destruct i as [|[|[|i]]]; simpl in Hi; try lia; simpl; split; try split; try lia.
Qed.
