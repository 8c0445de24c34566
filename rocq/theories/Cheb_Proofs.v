From Verif Require Import Prelude Ring Cheb_Model Cheb_Spec.

Section P.
  Variable R : cring.
  Add Ring Rr : (c_ring R).
  Local Open Scope cring_scope.
  Variable x : R.
  Notation T := (chebyshev R x).

  Lemma pair_eq n : chebyshev_pair R x n = (T n, T (S n)).
  Proof. unfold chebyshev. cbn [chebyshev_pair]. destruct (chebyshev_pair R x n). reflexivity. Qed.
  Lemma T_SS n : T (S (S n)) = (c1 + c1) * x * T (S n) - T n.
  Proof. unfold chebyshev at 1. cbn [chebyshev_pair]. rewrite pair_eq. reflexivity. Qed.
  Lemma T_0 : T 0 = c1. Proof. reflexivity. Qed.
  Lemma T_1 : T 1 = x. Proof. reflexivity. Qed.

  Lemma cassini n : T (S n) * T (S n) - (c1 + c1) * x * T n * T (S n) + T n * T n = c1 - x * x.
  Proof.
    induction n as [|n IH]; [rewrite T_0, T_1; ring|]. rewrite <- IH, T_SS. ring.
  Qed.

  Lemma doubling n : T (2 * n) = (c1 + c1) * T n * T n - c1 /\ T (S (2 * n)) = (c1 + c1) * T n * T (S n) - x.
  Proof.
    induction n as [|n [IH1 IH2]]; [cbn [Nat.mul Nat.add]; rewrite T_0, T_1; split; ring|].
    replace (2 * S n)%nat with (S (S (2 * n))) by lia.
    assert (E : T (S (S (2 * n))) = (c1 + c1) * T (S n) * T (S n) - c1).
    { rewrite T_SS, IH1, IH2. pose proof (cassini n) as C.
      transitivity ((c1 + c1) * (T (S n) * T (S n) - (T (S n) * T (S n) - (c1 + c1) * x * T n * T (S n) + T n * T n) - x * x) + c1); [ring|].
      rewrite C. ring. }
    split; [exact E|]. rewrite T_SS, E, IH2, (T_SS n). ring.
  Qed.

  Lemma cheb_ok k : forall fuel, k < fuel -> cheb R fuel (Z.of_nat k) x = Ok (T k).
  Proof.
    induction k as [k IH] using lt_wf_ind. intros [|fuel] Hf; [lia|]. cbn [cheb].
    destruct (Z.eqb_spec (Z.of_nat k) 0); [replace k with 0 by lia; reflexivity|].
    destruct (Z.eqb_spec (Z.of_nat k) 1); [replace k with 1 by lia; reflexivity|].
    destruct (Z.odd (Z.of_nat k)) eqn:O.
    - apply Z.odd_spec in O. destruct O as [h Hh].
      assert (Hk : k = S (2 * Z.to_nat h)%nat) by lia. set (p := Z.to_nat h) in *.
      replace (Z.quot (Z.of_nat k - 1) 2) with (Z.of_nat p) by (rewrite Hk, Z.quot_div_nonneg by lia; apply Z.div_unique with 0%Z; lia).
      rewrite IH by lia. cbn [bind]. replace (Z.of_nat p + 1)%Z with (Z.of_nat (S p)) by lia. rewrite IH by lia. cbn [bind].
      rewrite Hk, (proj2 (doubling p)). f_equal. cbn [cnum]. ring.
    - assert (E : Z.even (Z.of_nat k) = true) by (rewrite <- Z.negb_odd, O; reflexivity). apply Z.even_spec in E. destruct E as [h Hh].
      assert (Hk : k = (2 * Z.to_nat h)%nat) by lia. set (p := Z.to_nat h) in *.
      replace (Z.quot (Z.of_nat k) 2) with (Z.of_nat p) by (rewrite Hk, Z.quot_div_nonneg by lia; apply Z.div_unique with 0%Z; lia).
      rewrite IH by lia. cbn [bind]. rewrite Hk, (proj1 (doubling p)). f_equal. cbn [cnum]. ring.
  Qed.

  Lemma chebExplicit_ok k : forall fuel, k < fuel -> chebExplicit R fuel (Z.of_nat k) x = Ok (T k).
  Proof.
    induction k as [k IH] using lt_wf_ind. intros [|fuel] Hf; [lia|]. cbn [chebExplicit].
    do 8 (match goal with |- (if (?a =? ?b)%Z then _ else _) = _ => destruct (Z.eqb_spec a b) as [E|?];
      [clear -E; match type of E with _ = ?c => replace k with (Z.to_nat c) by lia; let v := eval vm_compute in (Z.to_nat c) in change (Z.to_nat c) with v end;
       rewrite ?T_SS, ?T_0, ?T_1; f_equal; cbn [cnum]; ring|] end).
    destruct (Z.odd (Z.of_nat k)) eqn:O.
    - apply Z.odd_spec in O. destruct O as [h Hh].
      assert (Hk : k = S (2 * Z.to_nat h)%nat) by lia. set (p := Z.to_nat h) in *.
      replace (Z.quot (Z.of_nat k - 1) 2) with (Z.of_nat p) by (rewrite Hk, Z.quot_div_nonneg by lia; apply Z.div_unique with 0%Z; lia).
      rewrite IH by lia. cbn [bind]. replace (Z.of_nat p + 1)%Z with (Z.of_nat (S p)) by lia. rewrite IH by lia. cbn [bind].
      rewrite Hk, (proj2 (doubling p)). f_equal. cbn [cnum]. ring.
    - assert (E : Z.even (Z.of_nat k) = true) by (rewrite <- Z.negb_odd, O; reflexivity). apply Z.even_spec in E. destruct E as [h Hh].
      assert (Hk : k = (2 * Z.to_nat h)%nat) by lia. set (p := Z.to_nat h) in *.
      replace (Z.quot (Z.of_nat k) 2) with (Z.of_nat p) by (rewrite Hk, Z.quot_div_nonneg by lia; apply Z.div_unique with 0%Z; lia).
      rewrite IH by lia. cbn [bind]. rewrite Hk, (proj1 (doubling p)). f_equal. cbn [cnum]. ring.
  Qed.

  Lemma neg_step m : (m < 0)%Z -> (Z.odd m = true -> (Z.quot (m - 1) 2 < 0)%Z) /\ (Z.odd m = false -> (Z.quot m 2 < 0)%Z).
  Proof.
    intros H. split; intros O.
    - pose proof (Z.quot_rem' (m - 1) 2). pose proof (Z.rem_bound_pos (-(m-1)) 2 ltac:(lia) ltac:(lia)) as B.
      rewrite Z.rem_opp_l in B by lia. lia.
    - assert (E : Z.even m = true) by (rewrite <- Z.negb_odd, O; reflexivity). apply Z.even_spec in E. destruct E as [h ->].
      rewrite Z.mul_comm, Z.quot_mul by lia. lia.
  Qed.

  Lemma cheb_neg fuel : forall m, (m < 0)%Z -> cheb R fuel m x = OutOfFuel /\ chebExplicit R fuel m x = OutOfFuel.
  Proof.
    induction fuel as [|fuel IH]; intros m Hm; [split; reflexivity|]. cbn [cheb chebExplicit].
    repeat match goal with |- context [(m =? ?b)%Z] => replace (m =? b)%Z with false by (symmetry; apply Z.eqb_neq; lia) end.
    destruct (neg_step m Hm) as [N1 N2]. destruct (Z.odd m).
    - destruct (IH _ (N1 eq_refl)) as [-> ->]. split; reflexivity.
    - destruct (IH _ (N2 eq_refl)) as [-> ->]. split; reflexivity.
  Qed.
End P.
