(** C14 MersenneTwister stream, C15 ranks, C16 RandomForTests, C70 reference seeding. *)
From Coq Require Import QArith.
From Verif Require Import Prelude Random_Model Random_Spec Random_Proofs.
Local Open Scope N_scope.

(** C14. For every seed there is one infinite sequence of words, given by the
    seed, the library's initialisation and the MT19937 recurrence, such that for
    every number of calls the outputs are the tempered words 624, 625, ...;
    words stay below 2^32 and the index below 624. *)
Theorem C14_stream : forall s, s < 2 ^ 32 ->
  exists g w, mt_seed s = Ok g /\
    w 0%nat = s /\ mt_recurrence w /\ (forall k, w k < 2 ^ 32) /\
    (forall i, (0 < i < 624)%nat ->
       w i = (1812433253 * (N.lxor (w (i - 1)%nat) (w (i - 1)%nat / 2 ^ 30) + N.of_nat i)) mod 2 ^ 32) /\
    forall m, exists g', mt_stream m g = Ok (map (fun k => temper (w (k + 624)%nat)) (seq 0 m), g') /\
      (mt_index g' < 624)%nat /\ length (mt_state g') = 624%nat /\
      (forall x, In x (mt_state g') -> x < 2 ^ 32).
Proof. exact mt_main. Qed.
Print Assumptions C14_stream.

(** Tempering keeps 32 bits and loses no information. *)
Theorem C14_temper_range : forall y, y < 2 ^ 32 -> temper y < 2 ^ 32.
Proof. exact temper_lt. Qed.
Print Assumptions C14_temper_range.

Theorem C14_temper_injective : forall a b, temper a = temper b -> a = b.
Proof. exact temper_inj. Qed.
Print Assumptions C14_temper_injective.

(** Known values of MT19937 tempering and of one generator run. *)
Example C14_nonvacuous :
  (do g <- mt_seed 5489 ;; do (l, _) <- mt_stream 3 g ;; Ok (length l)) = Ok 3%nat /\
  temper 1 = 4194449.
Proof. vm_compute. split; reflexivity. Qed.

(** C15. The claim "different ranks are seeded differently" is false: ranks 0
    and 1 always get the same generator. *)
Theorem C15_ranks_refuted : exists r1 r2, (0 <= r1)%Z /\ (0 <= r2)%Z /\ r1 <> r2 /\
  forall s, s < 2 ^ 32 -> exists g, mt_ctor_rank s r1 = Ok g /\ mt_ctor_rank s r2 = Ok g.
Proof. exact rank_0_1. Qed.
Print Assumptions C15_ranks_refuted.

(** What holds: rank r >= 1 is seeded with the r-th output of the stream of the
    common seed (rank 0 with the first one), so two ranks r1, r2 >= 1 get
    different seeds exactly when those two outputs differ. *)
Theorem C15_rank_seed_partial : forall s rank g ys g', s < 2 ^ 32 ->
  mt_seed s = Ok g -> mt_stream (Nat.max 1 (Z.to_nat rank)) g = Ok (ys, g') ->
  exists g'', mt_seed (last ys 0) = Ok g'' /\ mt_ctor_rank s rank = Ok g''.
Proof. exact mt_ctor_rank_spec. Qed.
Print Assumptions C15_rank_seed_partial.

Example C15_nonvacuous :
  (do g <- mt_ctor_rank 7 2 ;; do g' <- mt_ctor_rank 7 3 ;;
   do a <- vget (mt_state g) 0 ;; do b <- vget (mt_state g') 0 ;; Ok (a =? b)) = Ok false.
Proof. vm_compute. reflexivity. Qed.

(** C70. The initial words are not those of the reference MT19937. *)
Theorem C70_reference_seeding_refuted : exists s g, s < 2 ^ 32 /\ mt_seed s = Ok g /\
  exists i, (i < 624)%nat /\ nth i (mt_state g) 0 <> ref_init i s.
Proof. exact reference_seeding_differs. Qed.
Print Assumptions C70_reference_seeding_refuted.

Example C70_nonvacuous : ref_init 1 5489 = 1301868182.
Proof. vm_compute. reflexivity. Qed.

Local Open Scope Z_scope.

(** C16. No int overflow for any seed; the state becomes 16807*x mod 2^31-1
    (1 if that is 0), strictly between 0 and 2^31-1. *)
Theorem C16_next : forall x, - 2 ^ 31 <= x < 2 ^ 31 ->
  rft_next x = Ok (if (16807 * x) mod (2 ^ 31 - 1) =? 0 then 1 else (16807 * x) mod (2 ^ 31 - 1)).
Proof. exact rft_next_spec. Qed.
Print Assumptions C16_next.

Theorem C16_range : forall x y, - 2 ^ 31 <= x < 2 ^ 31 -> rft_next x = Ok y -> 0 < y < 2 ^ 31 - 1.
Proof. exact rft_range. Qed.
Print Assumptions C16_range.

(** From a state in range, n calls multiply by 16807^n modulo 2^31-1. *)
Theorem C16_iter : forall n x, 0 < x < 2 ^ 31 - 1 ->
  rft_iter n x = Ok ((16807 ^ Z.of_nat n * x) mod (2 ^ 31 - 1)).
Proof. exact rft_iter_spec. Qed.
Print Assumptions C16_iter.

(** The period is exactly 2^31 - 2: the stream does not repeat earlier. *)
Theorem C16_full_period : forall n x, 0 < x < 2 ^ 31 - 1 ->
  rft_iter n x = Ok x <-> (2 ^ 31 - 2 | Z.of_nat n).
Proof. exact rft_period. Qed.
Print Assumptions C16_full_period.

Example C16_nonvacuous :
  rft_next 1 = Ok 16807 /\ rft_next (-5) = Ok 2147399612 /\ rft_next 0 = Ok 1 /\
  rft_iter (Z.to_nat 10000) 1 = Ok 1043618065.
Proof. vm_compute. repeat split. Qed.
