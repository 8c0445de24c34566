(** Proofs about run identifiers. *)
From Coq Require Import Ascii String.
From Verif Require Import Prelude Str_Model Str_Spec Str_Proofs Text_Model Text_Proofs Strc_Proofs Random_Model Random_Spec Random_Proofs
  BitManip_Model BitManip_Spec BitManip_Proofs Rid_Model Rid_Spec.
Import List.

Lemma strtol_numeral s : (forall c, In c s -> is_digit c) -> strtol s = dec_val s.
Proof.
  intros H. unfold strtol. destruct s as [|c s]; [reflexivity|]. cbn [skipws]. assert (Hc : is_digit c) by (apply H; left; auto).
  rewrite (digit_not_space c Hc). destruct (digit_not_sign c Hc) as [E1 E2]. rewrite E2. rewrite E2 in E1. cbn [orb] in E1. rewrite E1.
  apply atoi_digits_0. exact H.
Qed.
Lemma digit_val_range c : is_digit c -> (0 <= digit_val c < 10)%Z.
Proof. intros H. unfold is_digit in H. cbn in H. repeat (destruct H as [<-|H]; [vm_compute; intuition congruence|]). destruct H. Qed.
Lemma dec_val_nonneg s : (forall c, In c s -> is_digit c) -> (0 <= dec_val s)%Z.
Proof.
  induction s as [|c s IH]; intros H; cbn [dec_val]; [lia|]. pose proof (digit_val_range c (H c (or_introl eq_refl))).
  assert (0 <= dec_val s)%Z by (apply IH; intros d Hd; apply H; right; auto).
  pose proof (Z.pow_nonneg 10 (Z.of_nat (List.length s)) ltac:(lia)). nia.
Qed.
Lemma atol_numeral s : (forall c, In c s -> is_digit c) -> to_ulong (atol s) = Z.to_N (Z.min (2 ^ 63 - 1) (dec_val s)).
Proof.
  intros H. unfold atol. rewrite strtol_numeral by auto. pose proof (dec_val_nonneg s H). unfold to_ulong.
  rewrite Z.max_r by lia. rewrite Z.mod_small by lia. reflexivity.
Qed.
Lemma print_numeral n : numeral (print_N n) /\ dec_val (print_N n) = Z.of_N n.
Proof.
  unfold print_N, print_Z. destruct (Z.ltb_spec (Z.of_N n) 0); [lia|]. destruct (digits_of_ok (Z.of_N n)) as (A & B & C); [lia|].
  split; [split; auto|]. rewrite <- (atoi_digits_0 _ B). exact C.
Qed.
Lemma print_two x : (x < 100)%N -> exists a b, (if (x <? 10)%N then lit "0" else []) ++ print_N x = [a; b] /\ is_digit a /\ is_digit b /\
  Z.of_N x = (10 * digit_val a + digit_val b)%Z.
Proof.
  intros H.
  assert (D : existsb (N.eqb x) (map N.of_nat (seq 0 100)) = true).
  { apply existsb_exists. exists x. split; [|apply N.eqb_refl]. apply in_map_iff. exists (N.to_nat x). split; [apply N2Nat.id|apply in_seq; lia]. }
  assert (Hx : In x (map N.of_nat (seq 0 100))) by (apply existsb_exists in D; destruct D as (y & Hy & E); apply N.eqb_eq in E; subst; auto).
  clear D H. destruct (print_numeral x) as ((_ & Hd) & _). cbn in Hx.
  repeat (destruct Hx as [<-|Hx]; [eexists; eexists; split; [vm_compute; reflexivity|split; [vm_compute; tauto|split; [vm_compute; tauto|reflexivity]]]|]).
  destruct Hx.
Qed.
Lemma ones_le w : (ones w <= 64)%N.
Proof.
  unfold ones.
  assert (L : List.length (filter (fun i => N.testbit w (N.of_nat i)) (seq 0 64)) <= 64).
  { assert (G : forall (f : nat -> bool) l, List.length (filter f l) <= List.length l) by (intros f l; induction l as [|x l IH]; cbn; [lia|destruct (f x); cbn; lia]).
    etransitivity; [apply G|rewrite seq_length; lia]. }
  lia.
Qed.

Lemma check_ok n a b : numeral n -> is_digit a -> is_digit b ->
  checkRunId (n ++ [a; b]) = Ok (Z.of_N (ones (Z.to_N (Z.min (2 ^ 63 - 1) (dec_val n)))) =? 10 * digit_val a + digit_val b)%Z.
Proof.
  intros [Nn Hn] Ha Hb. unfold checkRunId. rewrite app_length. cbn [List.length].
  assert (0 < List.length n) by (destruct n; [congruence|cbn; lia]).
  destruct (Nat.ltb_spec (List.length n + 2) 3); [lia|]. replace (List.length n + 2 - 2) with (List.length n) by lia.
  rewrite firstn_app, firstn_all, Nat.sub_diag, skipn_app, skipn_all, Nat.sub_diag. cbn [firstn skipn app]. rewrite app_nil_r.
  rewrite atol_numeral by auto. pose proof (dec_val_nonneg n Hn).
  rewrite countKernighan_ones by lia. cbn [bind]. rewrite strtol_numeral by (intros c [<-|[<-|[]]]; auto).
  f_equal. f_equal. cbn [dec_val List.length]. change (10 ^ Z.of_nat 1)%Z with 10%Z. change (10 ^ Z.of_nat 0)%Z with 1%Z. lia.
Qed.

Lemma lxor_lt a b k : (a < 2 ^ k)%N -> (b < 2 ^ k)%N -> (N.lxor a b < 2 ^ k)%N.
Proof.
  intros Ha Hb. destruct (N.eq_dec (N.lxor a b) 0) as [->|Nz]; [apply N.lt_le_trans with (m := 1%N); [lia|]; assert (0 < 2 ^ k)%N by (apply N.neq_0_lt_0; apply N.pow_nonzero; lia); lia|].
  apply N.log2_lt_pow2; [lia|]. apply N.le_lt_trans with (m := N.max (N.log2 a) (N.log2 b)); [apply N.log2_lxor|].
  assert (K : (0 < k)%N).
  { destruct (N.eq_dec k 0) as [->|]; [|lia]. assert (a = 0%N) as -> by (cbn in Ha; lia). assert (b = 0%N) as -> by (cbn in Hb; lia). exfalso. apply Nz. reflexivity. }
  apply N.max_lub_lt.
  - destruct (N.eq_dec a 0) as [->|]; [cbn; auto|]. apply N.log2_lt_pow2; [lia|auto].
  - destruct (N.eq_dec b 0) as [->|]; [cbn; auto|]. apply N.log2_lt_pow2; [lia|auto].
Qed.
Lemma runId_ok p tt : (p < 2 ^ 32)%N -> exists y id, runIdInternal p tt = Ok id /\ (y < 2 ^ 63)%N /\ run_id id y.
Proof.
  intros Hp. unfold runIdInternal.
  destruct (mt_main (wrap32 (tt + p))) as (g & w & Es & _ & _ & Hw & _ & St); [apply N.mod_lt; lia|].
  rewrite Es. cbn [bind]. destruct (St 3%nat) as (g' & E3 & _). clear St Es. cbn [mt_stream seq map] in E3.
  destruct (mt_random g) as [[r1 g1]| | |] eqn:R1; cbn [bind] in E3 |- *; try discriminate E3.
  destruct (mt_random g1) as [[r2 g2]| | |] eqn:R2; cbn [bind] in E3 |- *; try discriminate E3.
  destruct (mt_random g2) as [[r3 g3]| | |] eqn:R3; cbn [bind] in E3 |- *; try discriminate E3.
  apply Ok_inj in E3. injection E3 as E1 E2 E3 _. assert (H3 : (r3 < 2 ^ 32)%N) by (rewrite E3; apply temper_lt; auto).
  destruct (print_numeral (wrap32 (N.lxor tt r1))) as ((_ & D1) & _). destruct (print_numeral (N.lxor p r2)) as ((_ & D2) & _).
  rewrite atol_numeral by (intros c Hc; apply in_app_or in Hc; destruct Hc; auto).
  match goal with |- context [N.lxor ?a r3] => set (y0 := a) end. set (y := N.lxor y0 r3).
  assert (Hy0 : (y0 < 2 ^ 63)%N) by (unfold y0; lia). assert (Hy : (y < 2 ^ 63)%N) by (apply lxor_lt; [auto|lia]).
  rewrite countKernighan_ones by lia. cbn [bind]. pose proof (ones_le y).
  destruct (print_two (ones y)) as (a & b & E & Ha & Hb & Hv); [lia|]. rewrite E.
  destruct (print_numeral y) as (Nm & Dv). exists y, (print_N y ++ [a; b]). split; [reflexivity|]. split; [auto|].
  exists (print_N y), a, b. auto 10.
Qed.

Lemma ones_flip w k : (k < 64)%N -> ones (N.lxor w (2 ^ k)) = (ones w + 1)%N \/ ones w = (ones (N.lxor w (2 ^ k)) + 1)%N.
Proof.
  intros Hk. unfold ones. replace (seq 0 64) with (seq 0 (N.to_nat k) ++ N.to_nat k :: seq (S (N.to_nat k)) (63 - N.to_nat k)).
  2: { change (N.to_nat k :: seq (S (N.to_nat k)) (63 - N.to_nat k)) with (seq (0 + N.to_nat k) (S (63 - N.to_nat k))). rewrite <- seq_app. f_equal. lia. }
  set (f := fun i => N.testbit w (N.of_nat i)). set (g := fun i => N.testbit (N.lxor w (2 ^ k)) (N.of_nat i)).
  assert (Eq : forall i, i <> N.to_nat k -> g i = f i).
  { intros i Hi. unfold g, f. rewrite N.lxor_spec, N.pow2_bits_false by lia. apply Bool.xorb_false_r. }
  assert (Ne : g (N.to_nat k) = negb (f (N.to_nat k))).
  { unfold g, f. rewrite N2Nat.id, N.lxor_spec, N.pow2_bits_true. apply Bool.xorb_true_r. }
  rewrite !filter_app, !app_length. cbn [filter]. rewrite Ne.
  rewrite (filter_ext_in g f (seq 0 (N.to_nat k))) by (intros i Hi; apply in_seq in Hi; apply Eq; lia).
  rewrite (filter_ext_in g f (seq (S (N.to_nat k)) (63 - N.to_nat k))) by (intros i Hi; apply in_seq in Hi; apply Eq; lia).
  destruct (f (N.to_nat k)); cbn [negb List.length]; lia.
Qed.
