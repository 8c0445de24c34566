From Coq Require Import Reals Lra Factorial.
From Verif Require Import Prelude Ring Cplx Vec_Model Vec_Spec Vec_Proofs Rk_Model Rk_Spec Rk_Proofs.
Local Open Scope R_scope.

(** The exponential and its Taylor polynomial *)
Definition taylor4 (z : R) : R := 1 + z + z ^ 2 / 2 + z ^ 3 / 6 + z ^ 4 / 24.
Definition eterm (x : R) (i : nat) : R := / INR (fact i) * x ^ i.
Lemma exp_cv x : Un_cv (fun n => sum_f_R0 (eterm x) n) (exp x).
Proof. intros eps He. unfold exp. destruct (exist_exp x) as [l Hl]. cbn [proj1_sig]. exact (Hl eps He). Qed.
Lemma eterm_nonneg x i : 0 <= x -> 0 <= eterm x i.
Proof. intros H. unfold eterm. apply Rmult_le_pos; [left; apply Rinv_0_lt_compat, INR_fact_lt_0|apply pow_le; auto]. Qed.
Lemma exp_partial x n : 0 <= x -> sum_f_R0 (eterm x) n <= exp x.
Proof. intros H. apply (sum_incr (eterm x) n (exp x) (exp_cv x)). intros i. apply eterm_nonneg; auto. Qed.
Lemma taylor4_sum x : sum_f_R0 (eterm x) 4 = taylor4 x.
Proof. cbn [sum_f_R0]. unfold eterm, taylor4. cbn [fact Nat.mul Nat.add]. cbn [INR]. field. Qed.
Lemma eterm_shift x i : Rabs (eterm x (i + 5)) <= Rabs x ^ 5 / 120 * eterm (Rabs x) i.
Proof.
  unfold eterm. rewrite Rabs_mult, <- RPow_abs, pow_add. rewrite Rabs_right by (left; apply Rinv_0_lt_compat, INR_fact_lt_0).
  assert (F : 120 * INR (fact i) <= INR (fact (i + 5))).
  { replace 120 with (INR 120) by (rewrite INR_IZR_INZ; reflexivity). rewrite <- mult_INR. apply le_INR.
    replace (i + 5)%nat with (S (S (S (S (S i))))) by lia. cbn [fact]. set (k := fact i). change 120%nat with (5 * (4 * (3 * (2 * 1))))%nat.
    rewrite <- !Nat.mul_assoc. apply Nat.mul_le_mono; [lia|]. apply Nat.mul_le_mono; [lia|]. apply Nat.mul_le_mono; [lia|]. apply Nat.mul_le_mono; [lia|]. apply Nat.mul_le_mono; lia. }
  assert (Fi : 0 < INR (fact i)) by apply INR_fact_lt_0.
  assert (X : / INR (fact (i + 5)) <= / (120 * INR (fact i))) by (apply Rinv_le_contravar; lra).
  replace (Rabs x ^ 5 / 120 * (/ INR (fact i) * Rabs x ^ i)) with (/ (120 * INR (fact i)) * (Rabs x ^ i * Rabs x ^ 5)) by (field; lra).
  apply Rmult_le_compat_r; auto. apply Rmult_le_pos; apply pow_le, Rabs_pos.
Qed.
Lemma tail_bound x n : Rabs (sum_f_R0 (eterm x) (n + 5) - taylor4 x) <= Rabs x ^ 5 / 120 * sum_f_R0 (eterm (Rabs x)) n.
Proof.
  induction n as [|n IH].
  - change (0 + 5)%nat with 5%nat. change (sum_f_R0 (eterm x) 5) with (sum_f_R0 (eterm x) 4 + eterm x 5). rewrite taylor4_sum. replace (taylor4 x + eterm x 5 - taylor4 x) with (eterm x 5) by ring. apply (eterm_shift x 0).
  - change (S n + 5)%nat with (S (n + 5)). cbn [sum_f_R0]. replace (sum_f_R0 (eterm x) (n + 5) + eterm x (S (n + 5)) - taylor4 x) with (sum_f_R0 (eterm x) (n + 5) - taylor4 x + eterm x (S n + 5)) by (cbn; ring).
    eapply Rle_trans; [apply Rabs_triang|]. rewrite Rmult_plus_distr_l. apply Rplus_le_compat; [exact IH|apply eterm_shift].
Qed.
Lemma taylor4_exp x : Rabs (exp x - taylor4 x) <= Rabs x ^ 5 / 120 * exp (Rabs x).
Proof.
  apply Rnot_lt_le. intros H. set (b := Rabs x ^ 5 / 120 * exp (Rabs x)) in *.
  destruct (exp_cv x (Rabs (exp x - taylor4 x) - b)) as (N & HN); [lra|].
  specialize (HN (N + 5)%nat ltac:(lia)). unfold R_dist in HN.
  assert (B : Rabs (sum_f_R0 (eterm x) (N + 5) - taylor4 x) <= b).
  { eapply Rle_trans; [apply tail_bound|]. apply Rmult_le_compat_l; [|apply exp_partial, Rabs_pos]. apply Rmult_le_pos; [apply pow_le, Rabs_pos|lra]. }
  assert (Rabs (exp x - taylor4 x) <= Rabs (sum_f_R0 (eterm x) (N + 5) - exp x) + Rabs (sum_f_R0 (eterm x) (N + 5) - taylor4 x)).
  { rewrite <- (Rabs_Ropp (sum_f_R0 (eterm x) (N + 5) - exp x)).
    replace (exp x - taylor4 x) with (- (sum_f_R0 (eterm x) (N + 5) - exp x) + (sum_f_R0 (eterm x) (N + 5) - taylor4 x)) by ring. apply Rabs_triang. }
  lra.
Qed.
Lemma taylor4_le x : Rabs (taylor4 x) <= exp (Rabs x).
Proof.
  eapply Rle_trans; [|apply (exp_partial (Rabs x) 4), Rabs_pos]. rewrite <- taylor4_sum.
  generalize 4%nat. intros n. induction n as [|n IH]; cbn [sum_f_R0].
  - unfold eterm. cbn. rewrite Rabs_right; lra.
  - eapply Rle_trans; [apply Rabs_triang|]. apply Rplus_le_compat; auto. unfold eterm. rewrite Rabs_mult, <- RPow_abs. rewrite Rabs_right; [right; reflexivity|]. left; apply Rinv_0_lt_compat, INR_fact_lt_0.
Qed.
Lemma pow_diff a b M N : Rabs a <= M -> Rabs b <= M -> Rabs (a ^ S N - b ^ S N) <= INR (S N) * M ^ N * Rabs (a - b).
Proof.
  intros Ha Hb. assert (M0 : 0 <= M) by (pose proof (Rabs_pos a); lra). induction N as [|N IH].
  - cbn. rewrite !Rmult_1_r. rewrite !Rmult_1_l. lra.
  - replace (a ^ S (S N) - b ^ S (S N)) with (a * (a ^ S N - b ^ S N) + b ^ S N * (a - b)) by (cbn [pow]; ring).
    eapply Rle_trans; [apply Rabs_triang|]. rewrite !Rabs_mult.
    assert (P : Rabs (b ^ S N) <= M ^ S N) by (rewrite <- RPow_abs; apply pow_incr; split; [apply Rabs_pos|auto]).
    assert (Q : Rabs a * Rabs (a ^ S N - b ^ S N) <= M * (INR (S N) * M ^ N * Rabs (a - b))) by (apply Rmult_le_compat; auto using Rabs_pos).
    assert (W : Rabs (b ^ S N) * Rabs (a - b) <= M ^ S N * Rabs (a - b)) by (apply Rmult_le_compat_r; auto using Rabs_pos).
    rewrite (S_INR (S N)). cbn [pow] in *. lra.
Qed.
Lemma exp_INR z N : exp (INR N * z) = exp z ^ N.
Proof. induction N as [|N IH]; [cbn; rewrite Rmult_0_l; apply exp_0|]. rewrite S_INR, Rmult_plus_distr_r, exp_plus, IH, Rmult_1_l. cbn [pow]. ring. Qed.
Lemma order4 z N : Rabs (taylor4 z ^ N - exp (INR N * z)) <= INR N * (Rabs z ^ 5 / 120) * exp (INR N * Rabs z).
Proof.
  destruct N as [|N]; [cbn [pow INR]; rewrite !Rmult_0_l, exp_0; replace (1 - 1) with 0 by ring; rewrite Rabs_R0; lra|].
  rewrite !exp_INR. set (M := exp (Rabs z)).
  assert (E : Rabs (exp z) <= M).
  { rewrite Rabs_right by (left; apply exp_pos). unfold M. destruct (Rle_lt_or_eq_dec z (Rabs z) (RRle_abs z)) as [L|<-]; [left; apply exp_increasing; auto|right; reflexivity]. }
  eapply Rle_trans; [apply (pow_diff (taylor4 z) (exp z) M N); [apply taylor4_le|exact E]|].
  pose proof (taylor4_exp z) as T. rewrite Rabs_minus_sym in T. fold M in T.
  replace (INR (S N) * (Rabs z ^ 5 / 120) * M ^ S N) with (INR (S N) * M ^ N * (Rabs z ^ 5 / 120 * M)) by (cbn [pow]; ring).
  apply Rmult_le_compat_l; auto. apply Rmult_le_pos; [apply pos_INR|]. apply pow_le. left; apply exp_pos.
Qed.

Notation rk := (steps Rring (1 / 2) (1 / 6)).

Lemma Rtimes (h : R) i : times Rring h i = INR i * h.
Proof. induction i as [|i IH]; [cbn; ring|]. cbn [times]. rewrite IH, S_INR. cbn. ring. Qed.

Lemma rk_scal (l h t0 : R) y0 i k : (k < length y0)%nat ->
  nth k (rk (fun _ y => map (Rmult l) y) h t0 y0 i) 0 = taylor4 (h * l) ^ i * nth k y0 0.
Proof.
  intros Hk. induction i as [|i IH]; [cbn; ring|]. cbn [steps pow].
  pose proof (rk4_scal Rring (1 / 2) (1 / 6) l h (t0 + times Rring h i) (rk (fun _ y => map (Rmult l) y) h t0 y0 i) k) as E. cbn [c0 c1 cadd cmul Rring car] in E.
  refine (eq_trans (E _ _ _) _).
  - lra.
  - lra.
  - pose proof (steps_length Rring (1 / 2) (1 / 6) (fun _ y => map (Rmult l) y) h t0 y0 i) as S. cbn [car Rring] in *. lia.
  - refine (eq_trans (f_equal _ IH) _). unfold taylor4. field.
Qed.

(** Simpson's rule *)
Lemma rk_cubic (a b c d : nat -> R) (h t0 : R) y0 i k : (k < length y0)%nat ->
  nth k (rk (fun t _ => map (fun j => cubic (a j) (b j) (c j) (d j) t) (seq 0 (length y0))) h t0 y0 i) 0 =
  nth k y0 0 + (quartic (a k) (b k) (c k) (d k) (t0 + INR i * h) - quartic (a k) (b k) (c k) (d k) t0).
Proof.
  intros Hk. induction i as [|i IH]; [cbn [steps INR]; rewrite Rmult_0_l, Rplus_0_r, Rminus_diag_eq, Rplus_0_r by reflexivity; reflexivity|].
  cbn [steps]. set (y := rk _ h t0 y0 i) in *. assert (Ly : length y = length y0) by apply steps_length.
  unfold rk4. change (@c0 Rring) with 0. rewrite nth_mapseq by lia. change (@cadd Rring) with Rplus. change (@cmul Rring) with Rmult. change (@c1 Rring) with 1.
  rewrite !nth_mapseq by lia. rewrite IH. rewrite Rtimes, S_INR. unfold quartic, cubic. cbn [car Rring]. generalize (nth k y0 0). intros w. change (car Rring) with R in w. match goal with |- ?a = ?b => change (@eq R a b) end. field.
Qed.

(** Complex numbers *)
Lemma nrm2_mul (a b : Cring) : nrm2 (cmul a b) = nrm2 a * nrm2 b.
Proof. destruct a, b. unfold nrm2. cbn. ring. Qed.
Lemma rk_norm (E h t0 : R) (y0 : list Cring) i k : (k < length y0)%nat -> let th := E * h in
  nrm2 (nth k (steps Cring (RtoC (1 / 2)) (RtoC (1 / 6)) (fun _ y => map (cmul ((0, - E) : Cring)) y) (RtoC h) (RtoC t0) y0 i) c0) =
  (1 - th ^ 6 / 72 + th ^ 8 / 576) ^ i * nrm2 (nth k y0 c0).
Proof.
  intros Hk th. induction i as [|i IH]; [cbn [steps pow]; ring|]. cbn [steps]. rewrite rk4_scal.
  - rewrite nrm2_mul, IH. cbn [pow]. rewrite <- Rmult_assoc. f_equal. f_equal.
    unfold nrm2, RtoC, th. cbn. field.
  - unfold RtoC. cbn. unfold Cadd. cbn. apply f_equal2; field.
  - unfold RtoC. cbn. unfold Cmul, Cadd. cbn. apply f_equal2; field.
  - rewrite steps_length. auto.
Qed.
