(** C93: run identifiers. *)
From Coq Require Import Ascii String.
From Verif Require Import Prelude Str_Model Str_Spec Text_Model BitManip_Spec Rid_Model Rid_Spec Rid_Proofs.
Import List.

(** The identifier of a run is a number with the right two check digits, whatever the process and the time. *)
Theorem C93_run_id : forall p tt, (p < 2 ^ 32)%N -> exists id y, runIdInternal p tt = Ok id /\ (y < 2 ^ 63)%N /\ run_id id y.
Proof. intros p tt Hp. destruct (runId_ok p tt Hp) as (y & id & H). exists id, y. exact H. Qed.
Print Assumptions C93_run_id.

(** Such identifiers are accepted by the check... *)
Theorem C93_accepted : forall id y, (y < 2 ^ 63)%N -> run_id id y -> checkRunId id = Ok true.
Proof.
  intros id y Hy (n & a & b & -> & Hn & Ha & Hb & Hv & Ho). rewrite check_ok by auto. rewrite Hv, Z.min_r by lia. rewrite N2Z.id, Ho.
  rewrite Z.eqb_refl. reflexivity.
Qed.
Print Assumptions C93_accepted.

(** ... and of all texts of digits whose number is below 2^63 no others are. *)
Theorem C93_rejected : forall n a b, numeral n -> is_digit a -> is_digit b -> (dec_val n < 2 ^ 63)%Z ->
  ~ run_id (n ++ [a; b]) (Z.to_N (dec_val n)) -> checkRunId (n ++ [a; b]) = Ok false.
Proof.
  intros n a b Hn Ha Hb Hv H. rewrite check_ok by auto. pose proof (dec_val_nonneg n (proj2 Hn)). rewrite Z.min_r by lia.
  destruct (Z.eqb_spec (Z.of_N (ones (Z.to_N (dec_val n)))) (10 * digit_val a + digit_val b)) as [E|]; [|reflexivity].
  exfalso. apply H. exists n, a, b. repeat (split; [auto; apply Hn|]). split; [rewrite Z2N.id; auto|exact E].
Qed.
Print Assumptions C93_rejected.
Theorem C93_short : forall id, List.length id < 3 -> checkRunId id = Ok false.
Proof. intros id H. unfold checkRunId. apply Nat.ltb_lt in H. rewrite H. reflexivity. Qed.
Print Assumptions C93_short.

(** The check notices when one binary digit of the number changes, and when the check digits change. *)
Theorem C93_one_bit : forall n m a b k, numeral n -> numeral m -> is_digit a -> is_digit b -> (dec_val n < 2 ^ 63)%Z -> (dec_val m < 2 ^ 63)%Z -> (k < 63)%N ->
  Z.to_N (dec_val m) = N.lxor (Z.to_N (dec_val n)) (2 ^ k) ->
  checkRunId (n ++ [a; b]) = Ok true -> checkRunId (m ++ [a; b]) = Ok false.
Proof.
  intros n m a b k Hn Hm Ha Hb Ln Lm Hk E. rewrite !check_ok by auto. pose proof (dec_val_nonneg n (proj2 Hn)). pose proof (dec_val_nonneg m (proj2 Hm)).
  rewrite !Z.min_r by lia. rewrite E. intros H1. apply Ok_inj in H1. apply Z.eqb_eq in H1. f_equal. apply Z.eqb_neq.
  destruct (ones_flip (Z.to_N (dec_val n)) k); lia.
Qed.
Print Assumptions C93_one_bit.
Theorem C93_check_digits : forall n a b a' b', numeral n -> is_digit a -> is_digit b -> is_digit a' -> is_digit b' ->
  checkRunId (n ++ [a; b]) = Ok true -> checkRunId (n ++ [a'; b']) = Ok true -> a = a' /\ b = b'.
Proof.
  intros n a b a' b' Hn Ha Hb Ha' Hb'. rewrite !check_ok by auto. intros E1 E2. apply Ok_inj in E1. apply Ok_inj in E2. apply Z.eqb_eq in E1. apply Z.eqb_eq in E2.
  pose proof (digit_val_range a Ha). pose proof (digit_val_range b Hb). pose proof (digit_val_range a' Ha'). pose proof (digit_val_range b' Hb').
  assert (V : forall x y, digit_val x = digit_val y -> x = y).
  { intros x y Hxy. unfold digit_val in Hxy. rewrite <- (ascii_nat_embedding x), <- (ascii_nat_embedding y). f_equal. lia. }
  split; apply V; lia.
Qed.
Print Assumptions C93_check_digits.

(** A changed decimal digit of the number may pass. *)
Theorem C93_one_digit_refuted : checkRunId (lit "101") = Ok true /\ checkRunId (lit "201") = Ok true /\ checkRunId (lit "401") = Ok true.
Proof. repeat split; vm_compute; reflexivity. Qed.
Print Assumptions C93_one_digit_refuted.

(** Texts that are not all digits are accepted too: signs count, and a negative number is taken modulo 2^64. *)
Theorem C93_signs_refuted : checkRunId (lit "+101") = Ok true /\ checkRunId (lit "-164") = Ok true /\ checkRunId (lit " 1+1") = Ok true /\ checkRunId (lit "xy00") = Ok true.
Proof. repeat split; vm_compute; reflexivity. Qed.
Print Assumptions C93_signs_refuted.

Example C93_nonvacuous : checkRunId (lit "1203") = Ok false /\ run_id (lit "1202") 12 /\ exists id, runIdInternal 4321 123456 = Ok id /\ checkRunId id = Ok true /\ List.length id = 21.
Proof.
  split; [vm_compute; reflexivity|]. split.
  - exists (lit "12"), "0"%char, "2"%char. split; [reflexivity|]. split; [split; [discriminate|intros c [<-|[<-|[]]]; vm_compute; tauto]|].
    split; [vm_compute; tauto|]. split; [vm_compute; tauto|]. split; reflexivity.
  - eexists. split; [vm_compute; reflexivity|]. split; vm_compute; reflexivity.
Qed.
